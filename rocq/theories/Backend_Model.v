(** Model of the storage backends of the tiering service: which backend is chosen for a request or
    for a copy, where an asset is stored in it, and how the table of backends is filled and compared
    with the configuration.
    Sources, in checkpoint/orbax/checkpoint/experimental/tiering_service: storage_backend.py ("SB"),
    assets.py ("AS"), db_lib.py ("DL"), db_schema.py ("DS"), server.py ("SV").
    Simplifications: strings are lists of bytes; the table of backends is the list of its rows in the
    order in which the database gives them.  Not modelled: permissions, parsing of the yaml file. *)
From Coq Require Import List Bool Arith ZArith Ascii.
From Verif Require Import Base.
Import ListNotations.

(** Python's [str] (SB l.52, l.99) *)
Definition str := list ascii.

(** Equality of two strings (SB l.74) *)
Definition str_eqb (a b : str) : bool := if list_eq_dec ascii_dec a b then true else false.

(** [s.startswith(p)] (SB l.80, l.116) *)
Fixpoint startswith (p s : str) : bool :=
  match p, s with
  | [], _ => true
  | c :: p', d :: s' => if ascii_dec c d then startswith p' s' else false
  | _ :: _, [] => false
  end.

(** [s.endswith(e)] (SB l.122) *)
Definition endswith (e s : str) : bool := startswith (rev e) (rev s).

(** [s.lstrip("/")] (SB l.119) *)
Fixpoint lstrip (s : str) : str :=
  match s with
  | c :: s' => if ascii_dec c "/" then lstrip s' else s
  | [] => []
  end.

(** [s.rstrip("/")] (SB l.115, l.123) *)
Definition rstrip (s : str) : str := rev (lstrip (rev s)).

(** What follows the first dash, if there is one; applied to the reversed zone (AS l.454) *)
Fixpoint after_dash (s : str) : option str :=
  match s with
  | c :: s' => if ascii_dec c "-" then Some s' else after_dash s'
  | [] => None
  end.

(** [zone.rsplit("-", 1)[0]] (AS l.453-454 _get_region_from_zone) *)
Definition get_region_from_zone (zone : str) : str :=
  match after_dash (rev zone) with Some r => rev r | None => zone end.

(** DS l.45-50 *)
Inductive backend_type : Type := Unspecified | Lustre | Gcs.

(** DS l.45 *)
Definition type_eqb (a b : backend_type) : bool :=
  match a, b with Unspecified, Unspecified | Lustre, Lustre | Gcs, Gcs => true | _, _ => false end.

(** A row of the table of backends (DS l.195-207) *)
Record backend : Type := mkBackend {
  level : Z; zone : option str; region : option str; multi_regions : option (list str);
  btype : backend_type; bprefix : str }.

(** A string that counts as true: neither [None] nor empty (AS l.458, l.460) *)
Definition truthy (s : option str) : option str := match s with Some [] => None | _ => s end.

(** A list that counts as true (AS l.480, l.484) *)
Definition truthy_list (l : option (list str)) : option (list str) := match l with Some [] => None | _ => l end.

(** [s in l] (SB l.91, AS l.480) *)
Definition mem (s : str) (l : list str) : bool := existsb (str_eqb s) l.

(** [a == b] for two values that may be [None] (SB l.74, l.89) *)
Definition opt_eqb (a b : option str) : bool :=
  match a, b with Some x, Some y => str_eqb x y | None, None => true | _, _ => false end.

(** ** The backend of a request *)

(** SB l.80-85: the zone begins with the backend's region or one of its regions *)
Definition zone_prefixed (z : str) (b : backend) : bool :=
  (match region b with Some r => startswith r z | None => false end)
  || (match multi_regions b with Some rs => existsb (fun r => startswith r z) rs | None => false end).

(** SB l.89-92 *)
Definition region_named (r : str) (b : backend) : bool :=
  opt_eqb (region b) (Some r) || (match multi_regions b with Some rs => mem r rs | None => false end).

(** The first result that is not [None] *)
(** SB l.51-94: the returns in their order *)
Definition orelse {A : Type} (a b : option A) : option A := match a with Some x => Some x | None => b end.

(** SB l.51-94 locate_closest_backend *)
Definition locate_closest_backend (bs : list backend) (z r : option str) : option backend :=
  orelse
    (match z with
     | Some z' =>
         orelse (find (fun b => opt_eqb (zone b) (Some z')) bs)
                (match r with None => find (zone_prefixed z') bs | Some _ => None end)
     | None => None
     end)
    (match r with Some r' => find (region_named r') bs | None => None end).

(** A request carries a zone and a region; a field that was not set reads as the empty string
    (tiering_service.proto l.94-95, l.126-127).  SV l.46-52 _has_location *)
Definition has_location (z r : str) : bool := match z, r with [], [] => false | _, _ => true end.

(** SV l.107-135 Reserve, l.295-318 Prefetch: the backend chosen for a request. *)
Definition request_backend (level0 : list backend) (z r : str) : option backend :=
  if has_location z r then locate_closest_backend level0 (Some z) (Some r) else None.

(** SB l.31-48 find_backends_by_level *)
Definition find_backends_by_level (l : option Z) (bs : list backend) : list backend :=
  match l with Some l' => filter (fun b => Z.eqb (level b) l') bs | None => bs end.

(** ** The place of an asset in a backend *)

(** SB l.97-124 get_storage_path *)
Definition get_storage_path (prefix relative : str) (uuid : option str) : str :=
  let p := rstrip prefix in
  let base := if str_eqb relative p || startswith (p ++ ["/"%char]) relative then relative else p ++ ["/"%char] ++ lstrip relative in
  match uuid with
  | Some u => if endswith ("/"%char :: u) base then base else rstrip base ++ "/"%char :: u
  | None => base
  end.

(** ** The backend of a copy *)

(** AS l.457-461: the region of the source *)
Definition source_region (src : backend) : option str :=
  match truthy (zone src) with
  | Some z => Some (get_region_from_zone z)
  | None => truthy (region src)
  end.

(** AS l.466 *)
Definition zone_is (z : str) (b : backend) : bool := match truthy (zone b) with Some z' => str_eqb z' z | None => false end.

(** AS l.473-476 *)
Definition region_is (r : str) (b : backend) : bool :=
  (match truthy (region b) with Some r' => str_eqb r' r | None => false end)
  || (match truthy (zone b) with Some z => str_eqb (get_region_from_zone z) r | None => false end).

(** AS l.480 *)
Definition regions_have (r : str) (b : backend) : bool := match truthy_list (multi_regions b) with Some rs => mem r rs | None => false end.

(** AS l.487-498 *)
Definition overlaps (rs : list str) (b : backend) : bool :=
  (match truthy (region b) with Some r => mem r rs | None => false end)
  || (match truthy (zone b) with Some z => mem (get_region_from_zone z) rs | None => false end)
  || (match truthy_list (multi_regions b) with Some l => existsb (fun r => mem r l) rs | None => false end).

(** AS l.432-500 find_matching_backend.  [if source_region] skips an empty region. *)
Definition find_matching_backend (bs : list backend) (src : backend) : option backend :=
  orelse (match truthy (zone src) with Some z => find (zone_is z) bs | None => None end)
  (orelse (match truthy (source_region src) with
           | Some r => orelse (find (region_is r) bs) (find (regions_have r) bs)
           | None => None
           end)
  (match truthy_list (multi_regions src) with Some rs => find (overlaps rs) bs | None => None end)).

(** ** The table of backends *)

(** The order of [sorted] on strings (DL l.97, DS l.286) *)
Fixpoint str_leb (a b : str) : bool :=
  match a, b with
  | [], _ => true
  | _ :: _, [] => false
  | c :: a', d :: b' =>
      if nat_of_ascii c =? nat_of_ascii d then str_leb a' b' else nat_of_ascii c <? nat_of_ascii d
  end.

(** The building block of [sorted] (DL l.97) *)
Fixpoint insert_str (s : str) (l : list str) : list str :=
  match l with
  | [] => [s]
  | t :: l' => if str_leb s t then s :: l else t :: insert_str s l'
  end.

(** [sorted(l)] (DL l.97, DS l.285-286) *)
Definition sorted (l : list str) : list str := fold_right insert_str [] l.

(** A value was seen before: [x in seen] with the set growing (DS l.272-295).  [None] and empty values
    are skipped. *)
Fixpoint duplicate {A : Type} (eqb : A -> A -> bool) (l : list (option A)) : bool :=
  match l with
  | [] => false
  | None :: l' => duplicate eqb l'
  | Some x :: l' => existsb (fun y => match y with Some y' => eqb x y' | None => false end) l' || duplicate eqb l'
  end.

(** Equality of two lists of strings (DS l.293) *)
Definition strs_eqb (a b : list str) : bool := if list_eq_dec (list_eq_dec ascii_dec) a b then true else false.

(** DS l.238-295 validate_pre_commit for the backends of one level; the order of the checks does not
    matter as they all raise [ValueError]. *)
Definition validate (bs : list backend) : result unit :=
  match bs with
  | [] => Ok tt
  | b :: bs' =>
      if negb (forallb (fun c => type_eqb (btype c) (btype b)) bs') then Err ValueError
      else if duplicate str_eqb (map (fun c => truthy (zone c)) bs) then Err ValueError
      else if duplicate str_eqb (map (fun c => truthy (region c)) bs) then Err ValueError
      else if duplicate strs_eqb (map (fun c => option_map sorted (truthy_list (multi_regions c))) bs) then Err ValueError
      else Ok tt
  end.

(** The location in the configuration; at most one is given (tiering_service.proto l.44-48, DL l.139-144) *)
Inductive location : Type := AtZone (z : str) | AtRegion (r : str) | AtRegions (rs : list str) | Nowhere.

(** A backend of the configuration (tiering_service.proto l.41-51, DL l.124) *)
Record instance : Type := mkInstance { i_level : Z; i_loc : location; i_type : backend_type; i_prefix : str }.

(** DL l.202-208 *)
Definition loc_zone (l : location) : option str := match l with AtZone z => Some z | _ => None end.
(** DL l.202-208 *)
Definition loc_region (l : location) : option str := match l with AtRegion r => Some r | _ => None end.
(** DL l.202-208 *)
Definition loc_regions (l : location) : option (list str) := match l with AtRegions rs => Some rs | _ => None end.

(** DL l.134-145: the row made for a backend of the configuration *)
Definition row_of (i : instance) : backend :=
  mkBackend (i_level i) (loc_zone (i_loc i)) (loc_region (i_loc i)) (loc_regions (i_loc i)) (i_type i) (i_prefix i).

(** DS l.215-220: exactly one of the three locations *)
Definition one_location (b : backend) : bool :=
  (match zone b with Some _ => 1 | None => 0 end) + (match region b with Some _ => 1 | None => 0 end)
  + (match multi_regions b with Some _ => 1 | None => 0 end) =? 1.

(** DL l.112-147 async_initialize_db: an existing table is left alone; the flush validates every level
    (DS l.298-306).  The result is the table. *)
Definition initialize (table : list backend) (config : list instance) : result (list backend) :=
  match table with
  | _ :: _ => Ok table
  | [] =>
      if existsb (fun i => type_eqb (i_type i) Unspecified) config then Err ValueError
      else
        let rows := map row_of config in
        rbind (sequence (map (fun b => validate (filter (fun c => Z.eqb (level c) (level b)) rows)) rows))
          (fun _ => if forallb one_location rows then Ok rows else Err OtherError)
  end.

(** DL l.86-98 _get_backend_key *)
Definition key : Type := Z * option str * option str * option (list str).

(** DL l.86-98 _get_backend_key *)
Definition backend_key (l : Z) (z r : option str) (rs : option (list str)) : key :=
  (l, z, r, option_map sorted (truthy_list rs)).

(** Equality of keys (DL l.211) *)
Definition key_eqb (a b : key) : bool :=
  let '(l, z, r, rs) := a in let '(l', z', r', rs') := b in
  Z.eqb l l' && opt_eqb z z' && opt_eqb r r'
  && (match rs, rs' with Some x, Some y => strs_eqb x y | None, None => true | _, _ => false end).

(** DL l.186-189: the last row of a key wins *)
Definition lookup (k : key) (table : list backend) : option backend :=
  find (fun b => key_eqb (backend_key (level b) (zone b) (region b) (multi_regions b)) k) (rev table).

(** DL l.191-230: one backend of the configuration *)
Definition verify_one (table : list backend) (i : instance) : result unit :=
  if type_eqb (i_type i) Unspecified then Err ValueError
  else match lookup (backend_key (i_level i) (loc_zone (i_loc i)) (loc_region (i_loc i)) (loc_regions (i_loc i))) table with
       | None => Err ValueError
       | Some b =>
           if negb (type_eqb (btype b) (i_type i)) then Err ValueError
           else if negb (str_eqb (bprefix b) (i_prefix i)) then Err ValueError
           else Ok tt
       end.

(** DL l.164-230 async_verify_db *)
Definition verify (table : list backend) (config : list instance) : result unit :=
  if negb (List.length table =? List.length config) then Err ValueError
  else rmap (fun _ => tt) (sequence (map (verify_one table) config)).
