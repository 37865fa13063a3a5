(** Model of the files of a checkpoint saved in parts: the temporary directory of each save and the
    merge of the pending directories by [finalize], which may be killed at any point and run again.
    Source: checkpoint/orbax/checkpoint/experimental/v1/_src/partial/saving.py ("PS"),
    checkpoint/orbax/checkpoint/_src/path/snapshot/snapshot.py ("SN"),
    checkpoint/orbax/checkpoint/_src/path/atomicity.py ("AT"),
    checkpoint/orbax/checkpoint/experimental/v1/_src/saving/execution.py ("EX"),
    checkpoint/orbax/checkpoint/_src/serialization/ocdbt_utils.py ("OC") and
    checkpoint/orbax/checkpoint/_src/handlers/base_pytree_checkpoint_handler.py ("BP").
    Simplifications: the children of a directory are listed in the order of the list, any order;
    [rename] raises FileExistsError when the destination exists; [rename], [unlink] and [rmtree]
    happen at once, [write_text] can be killed with the file empty; the tasks of a [gather] work on
    different files, so their interleavings are given by how far each of them went; how two
    metadata files are merged is a parameter (Partial_Model has it); an error that is neither a
    ValueError nor one of the named OS errors is OtherError; no item of a save has a name with
    ".pending"; the manifest written by the merge of the OCDBT directories holds their names.
    Not modelled: barriers and the broadcast of the outcome, validation of the merged arrays. *)
From Coq Require Import List Bool Arith String Ascii.
From Verif Require Import Base Partial_Model.
Import ListNotations.
Open Scope string_scope.

(** ** Directories *)

Section Fs.
(** The JSON object of a metadata file *)
Context {J : Type}.
(** [_merge_fn] of the metadata of a pytree and of the checkpoint, destination first
    (PS l.347-355, l.452-453) *)
Variables merge_pytree merge_checkpoint : J -> J -> result J.

(** What a file holds: data, a JSON object, the list of an array_metadatas file (PS l.379-384), the
    text of an indicator file (AT l.544-548), nothing after a killed [write_text], or an OCDBT
    manifest over some process directories (OC l.169-205) *)
Inductive content := Blob (s : string) | Json (j : J) | Arrays (l : list string) | Mark | Trunc
  | Manifest (l : list string).

(** A file or a directory with named children (PS l.394-417) *)
Inductive node := File (c : content) | Dir (l : list (string * node)).

(** The child with a name, as [dst / item.name] with [exists] (PS l.396-409) *)
Fixpoint look {A} (n : string) (l : list (string * A)) : option A :=
  match l with [] => None | (m, v) :: r => if m =? n then Some v else look n r end.

(** A child made or replaced: the effect of [rename] and [write_text] on the destination
    (PS l.329, l.340) *)
Fixpoint put {A} (n : string) (v : A) (l : list (string * A)) : list (string * A) :=
  match l with
  | [] => [(n, v)]
  | (m, w) :: r => if m =? n then (n, v) :: r else (m, w) :: put n v r
  end.

(** The destination after a task: unchanged when there still is none (PS l.388-391) *)
Definition putd {A} (n : string) (d : option A) (l : list (string * A)) : list (string * A) :=
  match d with Some v => put n v l | None => l end.

(** ** Tasks *)

(** How far a task goes: to its end, killed after some of its own operations, or killed while the
    tasks it gathers have gone as far as the list says, the others not started (PS l.408-411) *)
Inductive sched := Full | Kill (n : nat) | Inside (l : list (string * sched)).

(** How a task ended (PS l.414-417, l.598) *)
Inductive status := Done | Raised (e : err) | Cut.

(** The schedule of a gathered task (PS l.408-410) *)
Definition child (sch : sched) (n : string) : sched :=
  match sch with
  | Full => Full
  | Kill _ => Kill 0
  | Inside l => match look n l with Some s => s | None => Kill 0 end
  end.

(** [asyncio.gather]: the first exception, else whether all came to their end (PS l.388, l.408,
    l.442, l.503) *)
Fixpoint gather (sts : list status) : status :=
  match sts with
  | [] => Done
  | Raised e :: _ => Raised e
  | Cut :: r => match gather r with Raised e => Raised e | _ => Cut end
  | Done :: r => gather r
  end.

(** What comes after a [gather]: nothing unless all tasks are done and the task goes on
    (PS l.408-412, l.442-446, l.503-508) *)
Definition after (sch : sched) (st : status) : status :=
  match st, sch with Done, Full => Done | Done, _ => Cut | _, _ => st end.

(** A source that may remain, the destination, how it ended (PS l.394-417) *)
Definition effect : Type := option node * option node * status.

(** The tasks of a [gather] over the children of a directory: each takes the child and what the
    destination directory has under the new name (PS l.388-391, l.408-410, l.442-444) *)
Definition merge_children (newname : string -> string)
    (f : sched -> string -> node -> option node -> effect) (sch : sched) :=
  fix go (ss ds : list (string * node)) : list (string * node) * list (string * node) * list status :=
    match ss with
    | [] => ([], ds, [])
    | (n, c) :: r =>
      let '(c', d', st) := f (child sch n) n c (look (newname n) ds) in
      let '(r', ds', sts) := go r (putd (newname n) d' ds) in
      (match c' with Some x => (n, x) :: r' | None => r' end, ds', st :: sts)
    end.

(** PS l.324-341 *)
Definition rename_or_merge_json (merge_fn : content -> content -> result content)
    (sch : sched) (src : node) (dst : option node) : effect :=
  match sch with
  | Kill 0 => (Some src, dst, Cut)
  | _ =>
    match dst with
    | None => (None, Some src, Done)
    | Some (File d) =>
      match src with
      | File s =>
        match merge_fn d s with
        | Err e => (Some src, dst, Raised e)
        | Ok m =>
          match sch with
          | Kill 1 => (Some src, Some (File Trunc), Cut)
          | Kill 2 => (Some src, Some (File m), Cut)
          | _ => (None, Some (File m), Done)
          end
        end
      | Dir _ => (Some src, dst, Raised OtherError)
      end
    | Some (Dir _) => (Some src, dst, Raised OtherError)
    end
  end.

(** [json.loads] of both and the merge of the objects (PS l.335-338) *)
Definition merge_json (m : J -> J -> result J) (d s : content) : result content :=
  match d, s with
  | Json a, Json b => match m a b with Ok j => Ok (Json j) | Err e => Err e end
  | _, _ => Err ValueError
  end.

(** PS l.379-384; any other file is a ValueError *)
Definition merge_arrays (d s : content) : result content :=
  match d, s with Arrays a, Arrays b => Ok (Arrays (a ++ b)) | _, _ => Err ValueError end.

(** PS l.394-417: the destination's parent exists *)
Fixpoint recursive_merge (sch : sched) (src : node) (dst : option node) {struct src} : effect :=
  match sch with
  | Kill 0 => (Some src, dst, Cut)
  | _ =>
    match dst with
    | None => (None, Some src, Done)
    | Some d =>
      match src with
      | File _ => (Some src, dst, Raised FileExistsError)
      | Dir ss =>
        match d with
        | File _ => match ss with [] => (None, dst, Done) | _ => (Some src, dst, Raised OtherError) end
        | Dir ds =>
          let '(ss', ds', sts) :=
            merge_children (fun n => n) (fun k _ c e => recursive_merge k c e) sch ss ds in
          match after sch (gather sts) with
          | Done => (None, Some (Dir ds'), Done)
          | st => (Some (Dir ss'), Some (Dir ds'), st)
          end
        end
      end
    end
  end.

(** PS l.372-391: the emptied source directory remains *)
Definition merge_array_metadatas (sch : sched) (src : node) (dst : option node) : effect :=
  match sch with
  | Kill 0 => (Some src, dst, Cut)
  | _ =>
    match dst with
    | Some (File _) => (Some src, dst, Raised FileExistsError)
    | _ =>
      let ds := match dst with Some (Dir l) => l | _ => [] end in
      match src with
      | File _ => (Some src, Some (Dir ds), Raised OtherError)
      | Dir ss =>
        let '(ss', ds', sts) :=
          merge_children (fun n => n) (fun k _ c e => rename_or_merge_json merge_arrays k c e) sch ss ds in
        (Some (Dir ss'), Some (Dir ds'), after sch (gather sts))
      end
    end
  end.

(** [uuid_str.replace("-", "")] (PS l.368) *)
Fixpoint no_dashes (u : string) : string :=
  match u with
  | EmptyString => EmptyString
  | String c r => if Ascii.eqb c "-"%char then no_dashes r else String c (no_dashes r)
  end.

(** A directory written by one process (PS l.435, OC l.169) *)
Definition is_process_dir (n : string) : bool := String.prefix "ocdbt.process_" n.

(** The name an item of a pytree gets (PS l.368, l.434, l.438, l.440) *)
Definition item_name (uuid n : string) : string :=
  if is_process_dir n then n ++ no_dashes uuid else n.

(** PS l.432-440; [_rename_ocdbt_process_dir] l.360-369 lets the error of [rename] through *)
Definition merge_item (sch : sched) (n : string) (src : node) (dst : option node) : effect :=
  if (n =? "_METADATA") || (n =? "_sharding") then
    rename_or_merge_json (merge_json merge_pytree) sch src dst
  else if is_process_dir n then
    match sch with
    | Kill 0 => (Some src, dst, Cut)
    | _ => match dst with None => (None, Some src, Done) | Some _ => (Some src, dst, Raised FileExistsError) end
    end
  else if n =? "array_metadatas" then merge_array_metadatas sch src dst
  else recursive_merge sch src dst.

(** PS l.420-446 for a source that is a directory *)
Definition merge_pytree_directory (uuid : string) (sch : sched) (src : node) (dst : option node) : effect :=
  match sch with
  | Kill 0 => (Some src, dst, Cut)
  | _ =>
    match dst with
    | Some (File _) => (Some src, dst, Raised FileExistsError)
    | _ =>
      let ds := match dst with Some (Dir l) => l | _ => [] end in
      match src with
      | File _ => (Some src, Some (Dir ds), Raised OtherError)
      | Dir ss =>
        let '(ss', ds', sts) := merge_children (item_name uuid) merge_item sch ss ds in
        match after sch (gather sts) with
        | Done => (None, Some (Dir ds'), Done)
        | st => (Some (Dir ss'), Some (Dir ds'), st)
        end
      end
    end
  end.

(** PS l.458-463 *)
Definition merge_indicator_file (sch : sched) (src : node) (dst : option node) : effect :=
  match sch with
  | Kill 0 => (Some src, dst, Cut)
  | _ => match dst with None => (None, Some src, Done) | Some _ => (None, dst, Done) end
  end.

(** PS l.468-472 *)
Definition is_pytree_dir (item : node) : bool :=
  match item with
  | Dir l => match look "_METADATA" l with Some _ => true | None => false end
  | File _ => false
  end.

(** The two indicator files (PS l.52-53, l.495) *)
Definition is_indicator (n : string) : bool := (n =? "orbax.checkpoint") || (n =? "commit_success.txt").

(** PS l.492-501 *)
Definition process_item (uuid : string) (sch : sched) (n : string) (src : node) (dst : option node) : effect :=
  if n =? "_CHECKPOINT_METADATA" then rename_or_merge_json (merge_json merge_checkpoint) sch src dst
  else if is_indicator n then merge_indicator_file sch src dst
  else if is_pytree_dir src then merge_pytree_directory uuid sch src dst
  else recursive_merge sch src dst.

(** Whether an item is put in [pytree_directories] (PS l.493-498) *)
Definition is_pytree_item (x : string * node) : bool :=
  negb (fst x =? "_CHECKPOINT_METADATA") && negb (is_indicator (fst x)) && is_pytree_dir (snd x).

(** ** Finalization *)

(** The partial path: its pending directories and everything else in it (PS l.482, SN l.44-45) *)
Record partial := mkPart { pending : list (string * list (string * node)); merged : list (string * node) }.

(** Where [finalize] is killed: never, in the loop after some pending directories, after some calls
    of the handler, or before the last rename (PS l.489-515, l.597) *)
Inductive killed := Never | InDir (n : nat) (sch : sched) | InHandler (n : nat).

(** The schedule of the next pending directory (PS l.489) *)
Definition dir_sched (k : killed) : sched := match k with InDir 0 sch => sch | _ => Full end.

(** The same seen from the following pending directory (PS l.489) *)
Definition next_dir (k : killed) : killed := match k with InDir (S n) sch => InDir n sch | _ => k end.

(** The loop over the pending directories: what is left, how it ended, the pytrees found
    (PS l.487-508) *)
Fixpoint merge_pending (k : killed) (ps : list (string * list (string * node))) (ds : list (string * node)) :
    partial * status * list string :=
  match ps with
  | [] => (mkPart [] ds, match k with InDir _ _ => Cut | _ => Done end, [])
  | (p, items) :: r =>
    let sch := dir_sched k in
    let uuid := get_uuid_from_pending_dir_name p in
    let '(items', ds', sts) := merge_children (fun n => n) (process_item uuid) sch items ds in
    let names := map fst (filter is_pytree_item items) in
    match after sch (gather sts) with
    | Done => let '(q, st, ns) := merge_pending (next_dir k) r ds' in (q, st, names ++ ns)%list
    | st => (mkPart ((p, items') :: r) ds', st, names)
    end
  end.

(** The handler's finalization of a pytree: without process directories nothing, else the manifest
    of all of them is written (BP l.1371-1389, OC l.167-205); a file in its place that is no
    manifest cannot be opened *)
Definition handler_finalize (n : string) (ds : list (string * node)) : result (list (string * node)) :=
  match look n ds with
  | Some (Dir l) =>
    match filter is_process_dir (map fst l) with
    | [] => Ok ds
    | ps =>
      match look "manifest.ocdbt" l with
      | None | Some (File (Manifest _)) => Ok (put n (Dir (put "manifest.ocdbt" (File (Manifest ps)) l)) ds)
      | Some _ => Err ValueError
      end
    end
  | _ => Ok ds
  end.

(** The calls of the handler (PS l.513-515) *)
Fixpoint finalize_pytrees (names : list string) (ds : list (string * node)) : list (string * node) * status :=
  match names with
  | [] => (ds, Done)
  | n :: r => match handler_finalize n ds with Ok ds' => finalize_pytrees r ds' | Err e => (ds, Raised e) end
  end.

(** PS l.475-515 *)
Definition merge_all (k : killed) (p : partial) : partial * status :=
  let '(q, st, names) := merge_pending k (pending p) (merged p) in
  match st with
  | Done =>
    let calls := match k with InHandler n => firstn n names | _ => names end in
    let '(ds, st') := finalize_pytrees calls (merged q) in
    (mkPart (pending q) ds, match st', k with Done, InHandler _ => Cut | _, _ => st' end)
  | _ => (q, st)
  end.

(** The partial and the final path (PS l.558-563) *)
Record session := mkSess { s_partial : option partial; s_final : option (list (string * node)) }.

(** PS l.565-619 *)
Definition finalize (k : killed) (s : session) : session * status :=
  match s_final s, s_partial s with
  | Some _, _ => (s, Raised FileExistsError)
  | None, None => (s, Raised FileNotFoundError)
  | None, Some p =>
    let '(q, st) := merge_all k p in
    match st with
    | Done => (mkSess None (Some (map (fun x => (fst x, Dir (snd x))) (pending q) ++ merged q)%list), Done)
    | _ => (mkSess (Some q) None, st)
    end
  end.

(** [finalize] again and again, killed or not (PS l.518-621) *)
Fixpoint finalize_runs (ks : list killed) (s : session) : session * list status :=
  match ks with
  | [] => (s, [])
  | k :: r =>
    let (s1, st) := finalize k s in
    let (s2, sts) := finalize_runs r s1 in (s2, st :: sts)
  end.
End Fs.
Arguments content : clear implicits.
Arguments node : clear implicits.
Arguments partial : clear implicits.
Arguments session : clear implicits.

(** ** The temporary directory of a save *)

(** What a save with a number does to the file system, in the order of its own operations: the
    temporary directory is made (EX l.275-279), files are written (EX l.292-296, l.171), the save is
    committed (EX l.197-211). Nothing makes a save wait for an earlier one (EX l.374-435). *)
Inductive save_event := Create (i : nat) | Write (i : nat) (f : string) | Commit (i : nat).

(** The temporary directory, whose name depends on the path only (AT l.164-167), with its files; the
    pending directories with the save that made each and their files (SN l.184-186); the saves
    that failed (EX l.235-236) *)
Record saves := mkSaves { tmp : option (list string); committed : list (nat * list string); failed : list nat }.

(** AT l.133-142 with SN l.153-158; AT l.544-550 with SN l.165-186 *)
Definition save_step (s : saves) (e : save_event) : saves :=
  match e with
  | Create i => mkSaves (Some []) (committed s) (failed s)
  | Write i f =>
    match tmp s with
    | Some fs => mkSaves (Some (fs ++ [f])%list) (committed s) (failed s)
    | None => mkSaves None (committed s) (failed s ++ [i])%list
    end
  | Commit i =>
    match tmp s with
    | Some fs => mkSaves None (committed s ++ [(i, fs)])%list (failed s)
    | None => mkSaves None (committed s) (failed s ++ [i])%list
    end
  end.

(** The events of one save (EX l.160-211, l.265-296) *)
Definition one_save (i : nat) (files : list string) : list save_event :=
  Create i :: (map (Write i) files ++ [Commit i])%list.
