(** Model of loading safetensors checkpoints by byte ranges: which bytes a process needs of each file,
    how they are put together into reads, and what the reads leave in the buffers.
    Source: checkpoint/orbax/checkpoint/experimental/v1/_src/layout/safetensors_layout.py ("SF").
    Simplifications: the JSON header is given as its entries, without "__metadata__"; a dtype is its
    item size, if it is known; paths are names; the over-read ratio is a fraction, and comparisons with
    it are exact (floats are rounded); the indices of a sharding are given as resolved bounds; chunks
    are read one after the other, in an order that is an argument; a file does not change; the arrays
    are given as buffers, without the conversion to the dtype that is wanted.
    Not modelled: metadata, statistics, the limit of bytes in flight (see Limiter_Model), logging. *)
From Coq Require Import List Bool Arith ZArith String.
From Verif Require Import Base Policy_Model Tree_Model.
From Verif Require Composite_Model.
Import ListNotations.
Open Scope Z_scope.

(** [range(a, b)] (SF l.281) *)
Definition zrange (a b : Z) : list Z := map (fun i => a + Z.of_nat i) (seq 0 (Z.to_nat (b - a))).

(** ** Byte runs *)

(** What the loop of SF l.237-241 has at the end: [acc], and the strides *)
Fixpoint strides_acc (shape : list Z) (itemsize : Z) : Z * list Z :=
  match shape with
  | [] => (itemsize, [])
  | n :: s => let r := strides_acc s itemsize in (fst r * n, fst r :: snd r)
  end.

(** SF l.235-242 *)
Definition byte_strides (shape : list Z) (itemsize : Z) : list Z := snd (strides_acc shape itemsize).

(** Equality of bounds (SF l.273) *)
Definition bound_eqb (a b : Z * Z) : bool := (fst a =? fst b) && (snd a =? snd b).

(** The dimensions from the back that are whole (SF l.271-276); the list is from the back. *)
Fixpoint full_from (l : list ((Z * Z) * Z)) : nat :=
  match l with
  | [] => O
  | (b, n) :: r => if bound_eqb b (0, n) then S (full_from r) else O
  end.

(** [itertools.product] of ranges (SF l.283) *)
Fixpoint product (rs : list (Z * Z)) : list (list Z) :=
  match rs with
  | [] => [[]]
  | (a, b) :: r => flat_map (fun c => map (cons c) (product r)) (zrange a b)
  end.

(** [offset += coord * strides[dim]] (SF l.285-286) *)
Fixpoint add_coords (offset : Z) (coords strides : list Z) : Z :=
  match coords, strides with
  | c :: cs, s :: ss => add_coords (offset + c * s) cs ss
  | _, _ => offset
  end.

(** The order of tuples of two (SF l.288, l.406) *)
Definition run_leb (a b : Z * Z) : bool := (fst a <? fst b) || ((fst a =? fst b) && (snd a <=? snd b)).

(** Put a tuple behind those that are not larger (SF l.288, l.406). *)
Fixpoint insert_run (x : Z * Z) (l : list (Z * Z)) : list (Z * Z) :=
  match l with [] => [x] | y :: r => if run_leb y x then y :: insert_run x r else x :: y :: r end.

(** [sorted(runs)] (SF l.288, l.406) *)
Definition sort_runs (l : list (Z * Z)) : list (Z * Z) := fold_left (fun acc x => insert_run x acc) l [].

(** SF l.245-289 *)
Definition byte_runs (bounds : list (Z * Z)) (shape : list Z) (itemsize base : Z) : list (Z * Z) :=
  match shape with
  | [] => [(base, itemsize)]
  | n0 :: _ =>
    let strides := byte_strides shape itemsize in
    let full := full_from (rev (combine bounds shape)) in
    let ndim := List.length shape in
    if (full =? ndim)%nat then [(base, nth 0 strides 0 * n0)]
    else
      let boundary := (ndim - full - 1)%nat in
      let b := nth boundary bounds (0, 0) in
      let stride := nth boundary strides 0 in
      let run_length := (snd b - fst b) * stride in
      let run_base := base + fst b * stride in
      sort_runs (map (fun o => (add_coords run_base o strides, run_length)) (product (firstn boundary bounds)))
  end.

(** ** Blocks *)

(** SF l.292-298 *)
Record block : Type := mkBlock { b_start : Z; b_end : Z; b_members : list nat }.

(** SF l.358-379 for a block that has begun; [fits] says whether a size is within the ratio of what is needed. *)
Fixpoint partition_loop (fits : Z -> Z -> bool) (gap : Z) (l : list (nat * (Z * Z))) (start stop needed : Z) (members : list nat) : list block :=
  match l with
  | [] => [mkBlock start stop members]
  | (i, (o, n)) :: r =>
    let new_end := Z.max stop (o + n) in
    if (o - stop <=? gap) || fits (new_end - start) (needed + n)
    then partition_loop fits gap r start new_end (needed + n) (members ++ [i])
    else mkBlock start stop members :: partition_loop fits gap r o (o + n) n [i]
  end.

(** SF l.352-380, without the check of the ratio *)
Definition partition (fits : Z -> Z -> bool) (gap : Z) (runs : list (Z * Z)) : list block :=
  match py_sorted (fun x => fst (snd x)) (enumerate runs) with
  | [] => []
  | (i, (o, n)) :: r => partition_loop fits gap r o (o + n) n [i]
  end.

(** [size <= ratio * needed] for the ratio [fst ratio / snd ratio] (SF l.369) *)
Definition within (ratio : Z * Z) (size needed : Z) : bool := size * snd ratio <=? fst ratio * needed.

(** SF l.301-380 *)
Definition partition_runs (ratio : Z * Z) (gap : Z) (runs : list (Z * Z)) : result (list block) :=
  match runs with
  | [] => Ok []
  | _ => if fst ratio <? snd ratio then Err ValueError else Ok (partition (within ratio) gap runs)
  end.

(** SF l.96 *)
Definition default_gap : Z := 4096.

(** SF l.89 *)
Definition auto_max_reads : Z := 1024.

(** SF l.410-414: what is needed, the number of reads and the end so far *)
Fixpoint auto_loop (l : list (Z * Z)) (needed reads prev_end : Z) : Z * Z * Z :=
  match l with
  | [] => (needed, reads, prev_end)
  | (o, n) :: r => auto_loop r (needed + n) (if default_gap <? o - prev_end then reads + 1 else reads) (Z.max prev_end (o + n))
  end.

(** SF l.383-418 *)
Definition auto_ratio (runs : list (Z * Z)) : result (Z * Z) :=
  match sort_runs runs with
  | [] => Ok (1, 1)
  | (o0, n0) :: r =>
    let res := auto_loop ((o0, n0) :: r) 0 1 o0 in
    let needed := fst (fst res) in
    if snd (fst res) <=? auto_max_reads then Ok (1, 1)
    else if needed =? 0 then Err ZeroDivisionError
    else let span := snd res - o0 in if span <=? needed then Ok (1, 1) else Ok (span, needed)
  end.

(** ** Reads *)

(** SF l.435-440; the destination is a view of [r_dlen] bytes at a position of a buffer. *)
Record read : Type := mkRead { r_off : Z; r_len : Z; r_buf : nat; r_pos : Z; r_dlen : Z }.

(** SF l.443-448; the destination is a view of [w_dlen] bytes at a position of a buffer. *)
Record write : Type := mkWrite { w_buf : nat; w_pos : Z; w_dlen : Z; w_start : Z; w_stop : Z }.

(** SF l.451-456 *)
Record chunk : Type := mkChunk { c_off : Z; c_len : Z; c_writes : list write }.

(** [r.dst[lo - r.offset : hi - r.offset]] and the bytes that go there, if any (SF l.514-523) *)
Definition write_of (chunk_start chunk_end : Z) (r : read) : list write :=
  let lo := Z.max (r_off r) chunk_start in
  let hi := Z.min (r_off r + r_len r) chunk_end in
  if lo <? hi then
    let a := Z.min (lo - r_off r) (r_dlen r) in
    let b := Z.min (hi - r_off r) (r_dlen r) in
    [mkWrite (r_buf r) (r_pos r + a) (b - a) (lo - chunk_start) (hi - chunk_start)]
  else [].

(** The loop that stops at the first run behind the chunk (SF l.509-523) *)
Fixpoint writes_until (chunk_start chunk_end : Z) (l : list read) : list write :=
  match l with
  | [] => []
  | r :: l' => if chunk_end <=? r_off r then [] else write_of chunk_start chunk_end r ++ writes_until chunk_start chunk_end l'
  end.

(** The runs that end before the chunk are passed (SF l.504-508). *)
Fixpoint skip_below (chunk_start : Z) (l : list read) : list read :=
  match l with
  | [] => []
  | r :: l' => if chunk_start <? r_off r + r_len r then l else skip_below chunk_start l'
  end.

(** SF l.500-526 for the starts of the chunks of a block *)
Fixpoint chunk_loop (starts : list Z) (size stop : Z) (l : list read) : list chunk :=
  match starts with
  | [] => []
  | s :: r =>
    let e := Z.min (s + size) stop in
    let l' := skip_below s l in
    mkChunk s (e - s) (writes_until s e l') :: chunk_loop r size stop l'
  end.

(** [range(start, stop, size)] for a positive size (SF l.500) *)
Definition chunk_starts (start stop size : Z) : list Z :=
  map (fun i => start + Z.of_nat i * size) (seq 0 (Z.to_nat ((stop - start + size - 1) / size))).

(** SF l.497-526 for the runs of a block *)
Definition block_chunks (size : Z) (reads : list read) (b : block) : list chunk :=
  chunk_loop (chunk_starts (b_start b) (b_end b) size) size (b_end b)
    (flat_map (fun i => match nth_error reads i with Some r => [r] | None => [] end) (b_members b)).

(** SF l.468-532, without the statistics; [range] fails if the size of the chunks is 0. *)
Definition plan_chunk_reads (reads : list read) (ratio : option (Z * Z)) (size : Z) : result (list chunk) :=
  let runs := map (fun r => (r_off r, r_len r)) reads in
  rbind (match ratio with Some q => Ok q | None => auto_ratio runs end) (fun q =>
  rbind (partition_runs q default_gap runs) (fun bs =>
  if (size =? 0) && negb (List.length bs =? 0)%nat then Err ValueError else Ok (flat_map (block_chunks size reads) bs))).

(** ** Files and memory *)

(** An entry of a header (SF l.140-146, l.210): the item size if the dtype is known, the shape, the offsets *)
Record info : Type := mkInfo { i_size : option Z; i_shape : list Z; i_begin : Z; i_end : Z }.

(** A file (SF l.149-158): its header, where its data starts, its length and its bytes *)
Record file (B : Type) : Type := mkFile { f_header : list (string * info); f_start : Z; f_len : Z; f_at : Z -> B }.
Arguments mkFile {B} _ _ _ _.
Arguments f_header {B} _.
Arguments f_start {B} _.
Arguments f_len {B} _.
Arguments f_at {B} _ _.

(** The buffers (SF l.599-619) *)
Definition memory (B : Type) : Type := nat -> Z -> B.

(** Fill a view (SF l.569). *)
Definition store {B : Type} (buf : nat) (pos len : Z) (v : Z -> B) (m : memory B) : memory B :=
  fun b p => if (b =? buf)%nat && ((pos <=? p) && (p <? pos + len)) then v (p - pos) else m b p.

(** [w.dst[:] = np.frombuffer(src[w.start:w.stop])] (SF l.567-569), where [av] bytes were read; numpy copies
    what has the same length, and spreads a single byte *)
Definition exec_write {B : Type} (f : file B) (off av : Z) (w : write) (m : memory B) : result (memory B) :=
  let n := Z.min (w_stop w) av - Z.min (w_start w) av in
  if n =? w_dlen w then Ok (store (w_buf w) (w_pos w) (w_dlen w) (fun i => f_at f (off + w_start w + i)) m)
  else if n =? 1 then Ok (store (w_buf w) (w_pos w) (w_dlen w) (fun _ => f_at f (off + w_start w)) m)
  else Err ValueError.

(** The copies of a chunk (SF l.568-569) *)
Fixpoint exec_writes {B : Type} (f : file B) (off av : Z) (l : list write) (m : memory B) : result (memory B) :=
  match l with [] => Ok m | w :: r => rbind (exec_write f off av w m) (exec_writes f off av r) end.

(** SF l.535-569: a read gives what the file has. *)
Definition read_chunk {B : Type} (f : file B) (c : chunk) (m : memory B) : result (memory B) :=
  exec_writes f (c_off c) (Z.max 0 (Z.min (c_len c) (f_len f - c_off c))) (c_writes c) m.

(** Chunks of several files, in the order in which they are read (SF l.595, l.1047) *)
Fixpoint read_chunks {B : Type} (l : list (file B * chunk)) (m : memory B) : result (memory B) :=
  match l with [] => Ok m | (f, c) :: r => rbind (read_chunk f c m) (read_chunks r) end.

(** ** Tensors *)

(** The number of elements (SF l.616) *)
Definition numel (shape : list Z) : Z := fold_right Z.mul 1 shape.

(** SF l.622-643, with the next buffer *)
Definition plan_whole (start : Z) (i : info) (buf : nat) : result (list read) :=
  match i_size i with
  | None => Err ValueError
  | Some z => Ok [mkRead (start + i_begin i) (i_end i - i_begin i) buf 0 (numel (i_shape i) * z)]
  end.

(** SF l.699-703: the runs of a shard, to the successive parts of its buffer of [total] bytes; a view ends with the buffer *)
Fixpoint shard_reads (runs : list (Z * Z)) (buf : nat) (write_offset total : Z) : list read :=
  match runs with
  | [] => []
  | (o, n) :: r => mkRead o n buf write_offset (Z.min (write_offset + n) total - Z.min write_offset total) :: shard_reads r buf (write_offset + n) total
  end.

(** Equality of index domains (SF l.687) *)
Fixpoint bounds_eqb (a b : list (Z * Z)) : bool :=
  match a, b with
  | [], [] => true
  | x :: a', y :: b' => bound_eqb x y && bounds_eqb a' b'
  | _, _ => false
  end.

(** Equality of shapes (SF l.674) *)
Fixpoint zs_eqb (a b : list Z) : bool :=
  match a, b with
  | [], [] => true
  | x :: a', y :: b' => (x =? y) && zs_eqb a' b'
  | _, _ => false
  end.

(** An abstract leaf (SF l.672, l.685): its shape, and the devices with their processes and bounds *)
Record leaf : Type := mkLeaf { l_shape : list Z; l_map : list (nat * (nat * list (Z * Z))) }.

(** SF l.681-687: the devices of this process by the part that they have *)
Definition by_index (this : nat) (m : list (nat * (nat * list (Z * Z)))) : dict (list (Z * Z)) (list nat) :=
  fold_left (fun d x =>
    if (fst (snd x) =? this)%nat
    then dput bounds_eqb (snd (snd x)) (match dget bounds_eqb (snd (snd x)) d with Some l => l | None => [] end ++ [fst x]) d
    else d) m [].

(** SF l.689-704 for the parts one after the other: the reads, and the buffers with their devices *)
Fixpoint plan_shards (shape : list Z) (z base : Z) (l : dict (list (Z * Z)) (list nat)) (buf : nat) : list read * list (nat * list nat) :=
  match l with
  | [] => ([], [])
  | (bounds, devices) :: r =>
    let total := numel (map (fun b => snd b - fst b) bounds) * z in
    let res := plan_shards shape z base r (S buf) in
    (shard_reads (byte_runs bounds shape z base) buf 0 total ++ fst res, (buf, devices) :: snd res)
  end.

(** SF l.646-704 *)
Definition plan_sharded (this : nat) (start : Z) (i : info) (a : leaf) (buf : nat) : result (list read * list (nat * list nat)) :=
  match i_size i with
  | None => Err ValueError
  | Some z =>
    if zs_eqb (l_shape a) (i_shape i) then Ok (plan_shards (l_shape a) z (start + i_begin i) (by_index this (l_map a)) buf)
    else Err ValueError
  end.

(** ** Loading *)

(** SF l.189-221 *)
Definition check_length {B : Type} (f : file B) : result unit :=
  let required := f_start f + fold_left Z.max (map (fun x => i_end (snd x)) (f_header f)) (match f_header f with [] => 0 | x :: _ => i_end (snd x) end) in
  if f_len f <? required then Err ValueError else Ok tt.

(** The entries of a file (SF l.951-956) *)
Fixpoint index_header (path : string) (l : list (string * info)) (d : dict string (string * info)) : result (dict string (string * info)) :=
  match l with
  | [] => Ok d
  | (name, i) :: r =>
    match dget String.eqb name d with
    | Some _ => Err ValueError
    | None => index_header path r (dput String.eqb name (path, i) d)
    end
  end.

(** SF l.950-956 for the files one after the other *)
Fixpoint index_files {B : Type} (l : list (string * file B)) (d : dict string (string * info)) : result (dict string (string * info)) :=
  match l with
  | [] => Ok d
  | (path, f) :: r => rbind (index_header path (f_header f) d) (index_files r)
  end.

(** SF l.943-957 *)
Definition file_index {B : Type} (files : list (string * file B)) : result (dict string (string * info)) :=
  rbind (sequence (map (fun x => check_length (snd x)) files)) (fun _ => index_files files []).

(** One name (SF l.1017-1021): the reads, the buffers with their devices, and the next buffer *)
Definition plan_name {B : Type} (this : nat) (files : list (string * file B)) (index : dict string (string * info)) (abstract : option (dict string leaf)) (name : string) (buf : nat)
  : result (string * list read * list (nat * list nat) * nat) :=
  rbind (fetch String.eqb index name) (fun e =>
  rbind (fetch String.eqb files (fst e)) (fun f =>
  match abstract with
  | None => rmap (fun rs => (fst e, rs, [(buf, [])], S buf)) (plan_whole (f_start f) (snd e) buf)
  | Some a =>
    rbind (fetch String.eqb a name) (fun l =>
    rmap (fun r => (fst e, fst r, snd r, (buf + List.length (snd r))%nat)) (plan_sharded this (f_start f) (snd e) l buf))
  end)).

(** SF l.1012-1023: the reads by file, and the buffers of the names *)
Fixpoint plan_names {B : Type} (this : nat) (files : list (string * file B)) (index : dict string (string * info)) (abstract : option (dict string leaf)) (names : list string) (buf : nat)
  (reads : dict string (list read)) (out : list (string * list (nat * list nat))) : result (dict string (list read) * list (string * list (nat * list nat))) :=
  match names with
  | [] => Ok (reads, out)
  | name :: r =>
    rbind (plan_name this files index abstract name buf) (fun p =>
    let path := fst (fst (fst p)) in
    plan_names this files index abstract r (snd p)
      (dput String.eqb path (match dget String.eqb path reads with Some l => l | None => [] end ++ snd (fst (fst p))) reads)
      (out ++ [(name, snd (fst p))]))
  end.

(** SF l.971-993: the size of the chunks; the limit of bytes in flight may not be given. *)
Definition chunk_size (in_flight chunk_bytes : option Z) : result Z :=
  let m := match in_flight with Some n => n | None => 2 * 1024 * 1024 * 1024 end in
  let c := match chunk_bytes with Some n => n | None => 128 * 1024 * 1024 end in
  if c <=? 0 then Err ValueError else if m + 1 <=? 0 then Err ValueError else Ok (Z.min c m).

(** SF l.592-594, l.1033-1039, l.1047: the chunks of the files *)
Definition plan_files {B : Type} (files : list (string * file B)) (ratio : option (Z * Z)) (size : Z) (reads : dict string (list read)) : result (list (file B * chunk)) :=
  rmap (@List.concat _) (sequence (map (fun x =>
    match snd x with
    | [] => Ok []
    | _ => rbind (fetch String.eqb files (fst x)) (fun f => rmap (map (pair f)) (plan_chunk_reads (snd x) ratio size))
    end) reads)).

(** SF l.943-1023, l.1032-1039: the plan of all that is read, and the buffers of the names *)
Definition plan_load {B : Type} (this nprocs : nat) (files : list (string * file B)) (in_flight chunk_bytes : option Z) (ratio : option (Z * Z)) (abstract : option (dict string leaf))
  : result (list (file B * chunk) * list (string * list (nat * list nat))) :=
  rbind (file_index files) (fun index =>
  rbind (chunk_size in_flight chunk_bytes) (fun size =>
  rbind (match abstract with
         | None => if (1 <? nprocs)%nat then Err ValueError else Ok (map fst index)
         | Some a => if forallb (fun x => match dget String.eqb (fst x) index with Some _ => true | None => false end) a then Ok (Composite_Model.sorted_names (map fst a)) else Err KeyError
         end) (fun names =>
  rbind (plan_names this files index abstract names 0 [] []) (fun p =>
  rmap (fun cs => (cs, snd p)) (plan_files files ratio size (fst p)))))).

(** SF l.889-919, l.959-1050: [order] puts the chunks into the order in which they are read. *)
Definition load {B : Type} (this nprocs : nat) (files : list (string * file B)) (in_flight chunk_bytes : option Z) (ratio : option (Z * Z)) (abstract : option (dict string leaf))
  (order : list (file B * chunk) -> list (file B * chunk)) (m0 : memory B) : result (memory B * list (string * list (nat * list nat))) :=
  rbind (plan_load this nprocs files in_flight chunk_bytes ratio abstract) (fun p =>
  rmap (fun m => (m, snd p)) (read_chunks (order (fst p)) m0)).
