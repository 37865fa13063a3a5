(** C83: the transport of values through colocated python. *)
From Coq Require Import List Bool Arith NArith ZArith String Ascii Lia Permutation.
From Verif Require Import Base StepName_Model Tree_Model Colocated_Model Colocated_Spec Colocated_Proofs.
Import ListNotations.
Local Open Scope string_scope.
Local Open Scope list_scope.
Local Open Scope nat_scope.

(** Devices for the examples *)
Definition cpu (o : nat) (i : N) (r : string) : dev := mkDev o 0 i "cpu" (list_ascii_of_string r).
Definition tpu (o : nat) (i : N) : dev := mkDev o 1 i "tpu" [].
Definition w0 : dev := cpu 0 0 "CpuDevice(id=0)[PjRtIFRTDeviceId=120]".
Definition w1 : dev := cpu 1 1 "CpuDevice(id=1)[PjRtIFRTDeviceId=121]".
Definition beside (d : dev) : dev := cpu (10 + d_obj d) (d_id d) "".

(** ** Global ids *)

(** The global id is the number after the first marker in the text of the device *)
Theorem C83_global_id : forall d pre n post, d_repr d = pre ++ list_ascii_of_string "PjRtIFRTDeviceId=" ++ dec n ++ post ->
  (forall a b, b <> [] -> pre = a ++ b -> forall r, b ++ list_ascii_of_string "PjRtIFRTDeviceId=" ++ dec n ++ post <> list_ascii_of_string "PjRtIFRTDeviceId=" ++ r) ->
  (match post with [] => True | c :: _ => ~ numeral c end) -> ifrt_id d = Some n.
Proof. intros d pre n post E H P. unfold ifrt_id. rewrite E. change (list_ascii_of_string "PjRtIFRTDeviceId=") with marker in *. rewrite (search_at pre n post H P). apply StepName_Proofs.parse_dec. Qed.
Print Assumptions C83_global_id.

Example C83_global_id_example : ifrt_id w0 = Some 120%N /\ ifrt_id (cpu 2 7 "PjRtIFRTDeviceId=x PjRtIFRTDeviceId=05 PjRtIFRTDeviceId=6") = Some 5%N.
Proof. vm_compute. split; reflexivity. Qed.

(** There is none exactly if no marker is followed by a digit *)
Theorem C83_no_global_id : forall d, ifrt_id d = None <-> ~ has_id (d_repr d).
Proof.
  intro d. rewrite <- search_none. unfold ifrt_id. destruct (search (d_repr d)) as [g|] eqn:E; [|tauto]. destruct (search_parse _ _ E) as [n ->]. split; discriminate.
Qed.
Print Assumptions C83_no_global_id.

Example C83_no_global_id_example : ifrt_id (cpu 2 7 "CpuDevice(id=7)") = None /\ ifrt_id (cpu 2 7 "PjRtIFRTDeviceId=-1") = None.
Proof. vm_compute. split; reflexivity. Qed.

(** ** All devices *)

(** The first device of each client, id and platform is there, and no other; the order is that of the scan *)
Theorem C83_backend_devices : forall o bs, let scan := match o with Some l => l | None => [] end ++ List.concat bs in
  sub (all_backend_devices o bs) scan /\
  (forall d, In d (all_backend_devices o bs) <-> exists a b, scan = a ++ d :: b /\ forall x, In x a -> ~ alike x d) /\
  (forall d, In d scan -> exists x, In x (all_backend_devices o bs) /\ alike d x).
Proof. intros o bs scan. rewrite all_backend_eq. split; [apply set_defaults_sub|]. split; [intro d; apply set_defaults_first | intro d; apply set_defaults_all]. Qed.
Print Assumptions C83_backend_devices.

Example C83_backend_devices_example : all_backend_devices (Some [w0; w1]) [[tpu 5 0]; [cpu 7 0 "again"; w1]] = [w0; w1; tpu 5 0] /\ all_backend_devices None [[cpu 7 0 "again"; w1]; [w0]] = [cpu 7 0 "again"; w1].
Proof. vm_compute. split; reflexivity. Qed.

(** ** The map of CPU devices *)

(** The map is there exactly if no id stands for two devices, else there is a ValueError; it finds for each id, global or local, the CPU device that it stands for *)
Theorem C83_map : forall l, objects l -> ((exists m, cpu_device_map l = Ok m) <-> clear l) /\ (forall e, cpu_device_map l = Err e -> e = ValueError) /\
  (forall m, cpu_device_map l = Ok m -> forall i d, dget N.eqb i m = Some d <-> In d l /\ stands i d).
Proof.
  intros l O. pose proof (map_spec l O) as M. destruct (cpu_device_map l) as [m|e].
  - split; [split; [intros _; now apply (holds_clear l m) | intros _; now exists m]|]. split; [discriminate|]. intros m' E. injection E as <-. exact M.
  - destruct M as [-> C]. split; [split; [intros [m X]; discriminate | intro X; exfalso; now apply (conflict_not_clear l)]|]. split; [intros e E; congruence | discriminate].
Qed.
Print Assumptions C83_map.

Example C83_map_example : cpu_device_map [tpu 5 120; w0; w1] = Ok [(120%N, w0); (121%N, w1); (0%N, w0); (1%N, w1)] /\ cpu_device_map [w0; cpu 3 120 "CpuDevice(id=120)"] = Err ValueError /\
  cpu_device_map [w0; cpu 3 9 "CpuDevice(id=9)[PjRtIFRTDeviceId=120]"] = Err ValueError /\ cpu_device_map [cpu 3 120 "CpuDevice(id=120)[PjRtIFRTDeviceId=120]"] = Ok [(120%N, cpu 3 120 "CpuDevice(id=120)[PjRtIFRTDeviceId=120]")].
Proof. vm_compute. repeat split. Qed.

(** The order of the scan does not matter *)
Theorem C83_map_order : forall l l', objects l -> (forall d, In d l <-> In d l') ->
  match cpu_device_map l, cpu_device_map l' with
  | Ok m, Ok m' => forall i, dget N.eqb i m = dget N.eqb i m'
  | Err e, Err e' => e = e'
  | _, _ => False
  end.
Proof.
  intros l l' O S. assert (O' : objects l') by (intros a b Ha Hb; apply O; now apply S). assert (X : clear l <-> clear l').
  { unfold clear. split; intros C i a b Ha Hb; apply (C i); now apply S. }
  pose proof (C83_map l O) as (M1 & M2 & M3). pose proof (C83_map l' O') as (N1 & N2 & N3). destruct (cpu_device_map l) as [m|e], (cpu_device_map l') as [m'|e'].
  - intro i. specialize (M3 m eq_refl i). specialize (N3 m' eq_refl i). destruct (dget N.eqb i m) as [d|] eqn:D.
    + symmetry. apply N3. destruct (proj1 (M3 d) eq_refl) as [H1 H2]. split; [now apply S | exact H2].
    + destruct (dget N.eqb i m') as [d|] eqn:D'; [|reflexivity]. destruct (proj1 (N3 d) eq_refl) as [H1 H2]. assert (None = Some d) by (apply M3; split; [now apply S | exact H2]). discriminate.
  - destruct (proj2 N1) as [m' Hm']; [apply X, M1; now exists m | discriminate].
  - destruct (proj2 M1) as [m Hm]; [apply X, N1; now exists m' | discriminate].
  - rewrite (M2 e eq_refl). now rewrite (N2 e' eq_refl).
Qed.
Print Assumptions C83_map_order.

Example C83_map_order_example : cpu_device_map [w1; w0] = Ok [(121%N, w1); (120%N, w0); (1%N, w1); (0%N, w0)].
Proof. vm_compute. reflexivity. Qed.

(** Ids are resolved exactly if no id stands for two devices and all stand for one; the devices are in the order of the ids *)
Theorem C83_resolve : forall l ids, objects l -> (forall ds, resolve l ids = Ok ds <-> clear l /\ Forall2 (fun i d => In d l /\ stands i d) ids ds) /\ (forall e, resolve l ids = Err e -> e = ValueError).
Proof. exact resolve_spec. Qed.
Print Assumptions C83_resolve.

Example C83_resolve_example : resolve [w0; w1] [121; 0; 120; 121]%N = Ok [w1; w0; w0; w1] /\ resolve [w0; w1; tpu 5 7] [0; 7]%N = Err ValueError.
Proof. vm_compute. split; reflexivity. Qed.

(** ** Meshes and lists before they are serialised *)

(** All devices become CPU devices; those that are CPU devices stay, the others become the ones beside them, each at its place; twice is once *)
Theorem C83_normalize : forall colo, (forall d, d_platform (colo d) = "cpu") ->
  (forall l, Forall2 (fun d d' => d' = if String.eqb (d_platform d) "cpu" then d else colo d) l (normalize_list colo l) /\ Forall (fun d => d_platform d = "cpu") (normalize_list colo l) /\ normalize_list colo (normalize_list colo l) = normalize_list colo l) /\
  (forall m, normalize_mesh colo m = mkMesh (m_names m) (m_types m) (m_shape m) (normalize_list colo (m_devices m))) /\
  (forall d k, normalize_single colo (d, k) = (if String.eqb (d_platform d) "cpu" then d else colo d, k)).
Proof.
  intros colo H. assert (C : forall x, is_cpu (colo x) = true) by (intro x; now apply is_cpu_spec). split; [|split].
  - intro l. rewrite !normalize_list_map. split; [|split].
    + induction l as [|d l IH]; constructor; [reflexivity | exact IH].
    + apply Forall_forall. intros d Hd. apply in_map_iff in Hd as (x & <- & _). apply is_cpu_spec. now apply to_serializable_cpu.
    + rewrite map_map. apply map_ext. intro d. now apply to_serializable_twice.
  - intro m. now rewrite normalize_mesh_map, normalize_list_map.
  - intros d k. unfold normalize_single, to_serializable, is_cpu. cbn [fst snd]. now destruct (String.eqb (d_platform d) "cpu").
Qed.
Print Assumptions C83_normalize.

Example C83_normalize_example : normalize_list beside [tpu 5 3; w0] = [cpu 15 3 ""; w0] /\ m_devices (normalize_mesh beside (mkMesh ["x"] [0] [2] [tpu 5 3; tpu 6 4])) = [cpu 15 3 ""; cpu 16 4 ""].
Proof. vm_compute. split; reflexivity. Qed.

(** The patch makes each reducer see CPU devices only, and the lookup the one above; installing it again changes nothing *)
Theorem C83_install : forall (R : Type) colo (h : hooks R), (forall d, d_platform (colo d) = "cpu") ->
  (forall colo', install colo' (install colo h) = install colo h) /\
  (h_installed h = false -> (forall m, exists n, h_mesh (install colo h) m = h_mesh h n /\ Forall (fun d => d_platform d = "cpu") (m_devices n) /\ (Forall (fun d => d_platform d = "cpu") (m_devices m) -> n = m)) /\
    (forall l, exists n, h_list (install colo h) l = h_list h n /\ Forall (fun d => d_platform d = "cpu") n /\ (Forall (fun d => d_platform d = "cpu") l -> n = l)) /\
    (forall d k, exists n, h_single (install colo h) (d, k) = h_single h (n, k) /\ d_platform n = "cpu" /\ (d_platform d = "cpu" -> n = d)) /\
    h_map (install colo h) = cpu_device_map).
Proof.
  intros R colo h H. destruct (C83_normalize colo H) as (N1 & N2 & N3). split.
  - intro colo'. unfold install at 1. destruct (h_installed h) eqn:E; unfold install; rewrite E; [now rewrite E | reflexivity].
  - intro E. unfold install. rewrite E. cbn [h_mesh h_list h_single h_map]. assert (K : forall l, Forall (fun d => d_platform d = "cpu") l -> normalize_list colo l = l).
    { intros l F. unfold normalize_list. assert (X : forallb is_cpu l = true); [|now rewrite X]. apply forallb_forall. intros d Hd. apply is_cpu_spec. rewrite Forall_forall in F. now apply F. }
    repeat split.
    + intro m. exists (normalize_mesh colo m). split; [reflexivity|]. rewrite N2. cbn [m_devices]. split; [apply N1|]. intro F. rewrite (K _ F). now destruct m.
    + intro l. exists (normalize_list colo l). split; [reflexivity|]. split; [apply N1 | apply K].
    + intros d k. exists (if String.eqb (d_platform d) "cpu" then d else colo d). rewrite N3. split; [reflexivity|]. destruct (String.eqb_spec (d_platform d) "cpu") as [e | ne]; split; auto. intro. contradiction.
Qed.
Print Assumptions C83_install.

Example C83_install_example : let h := install beside (mkHooks false m_devices (fun l => l) (fun s => [fst s]) (fun _ => Err KeyError)) in
  h_list h [tpu 5 3] = [cpu 15 3 ""] /\ h_single h (tpu 5 3, None) = [cpu 15 3 ""] /\ h_list (install beside h) [w0; tpu 5 3] = [w0; cpu 15 3 ""].
Proof. vm_compute. repeat split. Qed.

(** ** Devices beside devices *)

(** Of the devices beside the given ones, the first of each id, in order *)
Theorem C83_unique : forall colo l, sub (unique_colocated colo l) (map colo l) /\ NoDup (map d_id (unique_colocated colo l)) /\ (forall d, In d l -> In (d_id (colo d)) (map d_id (unique_colocated colo l))) /\
  (forall d, In d (unique_colocated colo l) <-> exists a b, map colo l = a ++ d :: b /\ forall x, In x a -> d_id x <> d_id d).
Proof.
  intros colo l. unfold unique_colocated. split; [apply unique_sub|]. split; [apply unique_nodup|]. split.
  - intros d H. apply unique_all; [now apply in_map | intros []].
  - intro d. rewrite unique_first. split; intros (a & b & H & K); exists a, b; [split; [exact H | apply K] | repeat split; auto].
Qed.
Print Assumptions C83_unique.

Example C83_unique_example : unique_colocated (fun d => cpu (d_obj d) (d_id d / 2) "") [tpu 0 2; tpu 1 3; tpu 2 0; tpu 3 1] = [cpu 0 1 ""; cpu 2 0 ""].
Proof. vm_compute. reflexivity. Qed.

(** A sharding of one of the two classes moves to the devices beside its devices, all else of it staying; others are TypeErrors *)
Theorem C83_sharding : forall colo s, (movable s -> exists c, cpu_sharding colo s = Ok c /\ movable c /\ devices c = map colo (devices s) /\ shape_of c = shape_of s) /\ (~ movable s -> cpu_sharding colo s = Err TypeError).
Proof. intros colo [d k | m spec k | n]; cbn; (split; [intro H | intro H; try (exfalso; now apply H)]); [eexists; repeat split.. | destruct H | reflexivity]. Qed.
Print Assumptions C83_sharding.

Example C83_sharding_example : cpu_sharding beside (SNamed (mkMesh ["x"] [0] [2] [tpu 5 3; tpu 6 4]) [["x"]] (Some "pinned_host")) = Ok (SNamed (mkMesh ["x"] [0] [2] [cpu 15 3 ""; cpu 16 4 ""]) [["x"]] (Some "pinned_host")) /\ cpu_sharding beside (SOther 1) = Err TypeError.
Proof. vm_compute. split; reflexivity. Qed.

(** ** Restore arguments *)

(** What becomes of the arguments of a restore: the mesh moves, the sharding moves, metadata become metadata of the moved sharding, and all else stays *)
Theorem C83_args : forall (M : Type) (o : meta_ops M) colo a b, convert_args o colo a = Ok b ->
  r_rest b = r_rest a /\
  (match r_mesh a, r_mesh b with Some m, Some n => m_names n = m_names m /\ m_types n = m_types m /\ m_shape n = m_shape m /\ m_devices n = map colo (m_devices m) | None, None => True | _, _ => False end) /\
  (match r_sharding a, r_sharding b with
   | None, None => True
   | Some (DJax s), Some (DJax c) => cpu_sharding colo s = Ok c
   | Some (DMeta m), Some (DMeta n) => exists s c, to_jax o m = Ok s /\ cpu_sharding colo s = Ok c /\ n = from_jax o m c
   | _, _ => False
   end).
Proof.
  intros M o colo [m s r] b. unfold convert_args. destruct m as [m|], s as [[s | x | ]|]; cbn [r_mesh r_sharding r_rest rmap rbind]; try discriminate.
  all: try (destruct (cpu_sharding colo s) as [c|] eqn:E; cbn [rmap]; [|discriminate]). all: try (destruct (to_jax o x) as [s|] eqn:E1; cbn [rbind]; [|discriminate]; destruct (cpu_sharding colo s) as [c|] eqn:E2; cbn [rmap]; [|discriminate]).
  all: intro H; injection H as <-; cbn; repeat split; eauto.
Qed.
Print Assumptions C83_args.

Example C83_args_example : convert_args (mkMeta (fun n : nat => Ok (SSingle (tpu n 0) None)) (fun _ s => List.length (devices s))) beside (mkArgs (Some (mkMesh ["x"] [0] [1] [tpu 5 3])) (Some (DMeta 4)) 9) = Ok (mkArgs (Some (mkMesh ["x"] [0] [1] [cpu 15 3 ""])) (Some (DMeta 1)) 9).
Proof. vm_compute. reflexivity. Qed.

(** They are refused only for a sharding that cannot be moved (a TypeError) or metadata that give no sharding (the error that gives) *)
Theorem C83_args_errors : forall (M : Type) (o : meta_ops M) colo a e, convert_args o colo a = Err e <->
  (e = TypeError /\ (r_sharding a = Some DOther \/ exists s, ~ movable s /\ (r_sharding a = Some (DJax s) \/ exists m, r_sharding a = Some (DMeta m) /\ to_jax o m = Ok s))) \/
  (exists m, r_sharding a = Some (DMeta m) /\ to_jax o m = Err e).
Proof.
  intros M o colo [m s r] e. assert (S : forall x, (movable x -> exists c, cpu_sharding colo x = Ok c) /\ (~ movable x -> cpu_sharding colo x = Err TypeError)).
  { intro x. destruct (C83_sharding colo x) as [H1 H2]. split; [|exact H2]. intro H. destruct (H1 H) as (c & E & _). now exists c. }
  assert (D : forall x, movable x \/ ~ movable x) by (intros [| |]; cbn; tauto).
  assert (E : convert_args o colo (mkArgs m s r) = Err e <-> match s with None => False | Some (DJax x) => cpu_sharding colo x = Err e | Some (DMeta y) => rbind (to_jax o y) (cpu_sharding colo) = Err e | Some DOther => e = TypeError end).
  { unfold convert_args. destruct m as [m|], s as [[x | y | ]|]; cbn [r_mesh r_sharding r_rest]; try (split; [discriminate | tauto]); try (split; congruence).
    all: try (destruct (cpu_sharding colo x); cbn; split; congruence). all: destruct (to_jax o y) as [x|]; cbn [rbind]; [destruct (cpu_sharding colo x)|]; cbn; split; congruence. }
  rewrite E. clear E. cbn [r_sharding]. destruct s as [[x | y | ]|].
  - destruct (D x) as [Y | Y]; destruct (S x) as [S1 S2].
    + destruct (S1 Y) as [c ->]. split; [discriminate|]. intros [[_ [H | (z & N & [H | (w & H & _)])]] | (w & H & _)]; try discriminate H. injection H as <-. contradiction.
    + rewrite (S2 Y). split; [intro H; left; split; [congruence|]; right; exists x; split; [exact Y | now left]|]. intros [[-> _] | (w & H & _)]; [reflexivity | discriminate].
  - destruct (to_jax o y) as [x|e'] eqn:T; cbn [rbind].
    + destruct (D x) as [Y | Y]; destruct (S x) as [S1 S2].
      * destruct (S1 Y) as [c ->]. split; [discriminate|]. intros [[_ [H | (z & N & [H | (w & H & H2)])]] | (w & H & H2)]; try discriminate H; injection H as <-; [congruence..|]. congruence.
      * rewrite (S2 Y). split; [intro H; left; split; [congruence|]; right; exists x; split; [exact Y | right; now exists y]|]. intros [[-> _] | (w & H & H2)]; [reflexivity|]. injection H as <-. congruence.
    + split; [intro H; right; exists y; split; [reflexivity | congruence]|]. intros [[-> [H | (z & N & [H | (w & H & H2)])]] | (w & H & H2)]; try discriminate H; injection H as <-; congruence.
  - split; [intros ->; left; split; [reflexivity | now left]|]. intros [[-> _] | (w & H & _)]; [reflexivity | discriminate].
  - split; [tauto|]. intros [[_ [H | (z & N & [H | (w & H & _)])]] | (w & H & _)]; discriminate H.
Qed.
Print Assumptions C83_args_errors.

Example C83_args_errors_example : convert_args (mkMeta (fun n : nat => Err KeyError) (fun _ s => 0)) beside (mkArgs None (Some (DMeta 4)) 9) = Err KeyError /\ convert_args (mkMeta (fun n : nat => Err KeyError) (fun _ s => 0)) beside (mkArgs None (Some (DJax (SOther 1))) 9) = Err TypeError.
Proof. vm_compute. split; reflexivity. Qed.

(** With a sharding of a single replica: it moves too, and must be a named one *)
Theorem C83_single : forall (M : Type) (o : meta_ops M) colo a,
  (snd a = None -> convert_single o colo a = rmap (fun b => (b, None)) (convert_args o colo (fst a))) /\
  (forall m spec k, snd a = Some (SNamed m spec k) -> convert_single o colo a = rmap (fun b => (b, Some (SNamed (mkMesh (m_names m) (m_types m) (m_shape m) (map colo (m_devices m))) spec k))) (convert_args o colo (fst a))) /\
  (forall d k, snd a = Some (SSingle d k) -> convert_single o colo a = Err AssertionError) /\
  (forall n, snd a = Some (SOther n) -> convert_single o colo a = Err TypeError).
Proof. intros M o colo [a s]. unfold convert_single. cbn [fst snd]. repeat split; intros; subst s; reflexivity. Qed.
Print Assumptions C83_single.

Example C83_single_example : convert_single (mkMeta (fun n : nat => Err KeyError) (fun _ s => 0)) beside (mkArgs None None 9, Some (SNamed (mkMesh ["x"] [0] [1] [tpu 5 3]) [[]] None)) = Ok (mkArgs None None 9, Some (SNamed (mkMesh ["x"] [0] [1] [cpu 15 3 ""]) [[]] None)) /\
  convert_single (mkMeta (fun n : nat => Err KeyError) (fun _ s => 0)) beside (mkArgs None None 9, Some (SSingle (tpu 5 3) None)) = Err AssertionError.
Proof. vm_compute. split; reflexivity. Qed.

(** ** Trees *)

(** Each leaf is moved at its place: shardings, the shardings of specs and arrays, restore arguments; shapes, types and values stay, and other leaves too *)
Theorem C83_tree : forall (M : Type) (o : meta_ops M) colo t t', transform_tree o colo t = Ok t' -> Forall2 (fun x y => match x, y with
  | LSharding s, LSharding c => cpu_sharding colo s = Ok c
  | LStruct sh dt _ (Some s), LStruct sh' dt' _ (Some c) => sh' = sh /\ dt' = dt /\ cpu_sharding colo s = Ok c
  | LSingleArgs a, LSingleArgs b => convert_single o colo a = Ok b
  | LArgs a, LArgs b => convert_args o colo a = Ok b
  | LArray sh v s, LArray sh' v' c => sh' = sh /\ v' = v /\ cpu_sharding colo s = Ok c
  | LOther n, LOther n' => n' = n
  | _, _ => False
  end) t t'.
Proof.
  intros M o colo t t' H. apply sequence_forall2 in H. revert H. apply Forall2_impl'. intros x y. destruct x as [s | sh dt w [s|] | a | a | sh v s | n]; cbn [transform_leaf]; try discriminate.
  - destruct (cpu_sharding colo s) as [c|]; cbn [rmap]; [|discriminate]. intro H. now injection H as <-.
  - destruct (cpu_sharding colo s) as [c|]; cbn [rmap]; [|discriminate]. intro H. injection H as <-. now repeat split.
  - destruct (convert_single o colo a) as [b|]; cbn [rmap]; [|discriminate]. intro H. now injection H as <-.
  - destruct (convert_args o colo a) as [b|]; cbn [rmap]; [|discriminate]. intro H. now injection H as <-.
  - destruct (cpu_sharding colo s) as [c|]; cbn [rmap]; [|discriminate]. intro H. injection H as <-. now repeat split.
  - intro H. now injection H as <-.
Qed.
Print Assumptions C83_tree.

Example C83_tree_example : transform_tree (mkMeta (fun n : nat => Err KeyError) (fun _ s => 0)) beside [LOther 3; LArray [2] 7 (SSingle (tpu 5 3) None); LStruct [2; 3] 1 false (Some (SSingle (tpu 6 4) (Some "device")))] =
  Ok [LOther 3; LArray [2] 7 (SSingle (cpu 15 3 "") None); LStruct [2; 3] 1 false (Some (SSingle (cpu 16 4 "") (Some "device")))].
Proof. vm_compute. reflexivity. Qed.

(** A tree of plain shardings, specs and arrays that can be moved is moved *)
Theorem C83_tree_total : forall (M : Type) (o : meta_ops M) colo t, (forall x, In x t -> match x with
  | LSharding s | LStruct _ _ _ (Some s) | LArray _ _ s => movable s
  | LOther _ => True
  | _ => False
  end) -> exists t', transform_tree o colo t = Ok t'.
Proof.
  intros M o colo. induction t as [|x t IH]; intro H; [now exists []|]. destruct IH as [t' E]; [intros y Hy; apply H; now right|]. unfold transform_tree in *. cbn [map sequence]. specialize (H x (or_introl eq_refl)).
  assert (X : exists y, transform_leaf o colo x = Ok y).
  { destruct x as [s | sh dt w [s|] | a | a | sh v s | n]; try contradiction; cbn [transform_leaf]; [destruct (proj1 (C83_sharding colo s) H) as (c & -> & _); eexists; reflexivity.. | eexists; reflexivity]. }
  destruct X as [y ->]. cbn. rewrite E. eexists. reflexivity.
Qed.
Print Assumptions C83_tree_total.

Example C83_tree_total_example : exists t', transform_tree (mkMeta (fun n : nat => Err KeyError) (fun _ s => 0)) beside [LSharding (SSingle w0 None); LOther 1] = Ok t'.
Proof. eexists. vm_compute. reflexivity. Qed.

(** `transform_tree_shardings` means to convert a spec only if it has a sharding (`hasattr(leaf, 'sharding')`), and to leave other leaves. But every `jax.ShapeDtypeStruct` has the attribute, with None when no sharding was given, so one spec without a sharding makes the whole tree a TypeError. *)
Theorem C83_spec_without_sharding_refuted : exists (x : leaf nat), x = LStruct [2] 0 false None /\ forall (o : meta_ops nat) colo a b, transform_tree o colo (map LOther a ++ x :: map LOther b) = Err TypeError.
Proof.
  exists (LStruct [2] 0 false None). split; [reflexivity|]. intros o colo a b. unfold transform_tree. rewrite map_app. induction a as [|n a IH]; [reflexivity|]. cbn in *. now rewrite IH.
Qed.
Print Assumptions C83_spec_without_sharding_refuted.

Example C83_spec_without_sharding_example : transform_tree (mkMeta (fun n : nat => Err KeyError) (fun _ s => 0)) beside [LOther 1; LStruct [2] 0 false None] = Err TypeError.
Proof. vm_compute. reflexivity. Qed.

(** `transform_tree_shardings` builds the new spec from shape, dtype and sharding only: a weakly typed spec comes out as one that is not. *)
Theorem C83_weak_type_refuted : exists (o : meta_ops nat) colo x y, transform_tree o colo [LStruct [] 0 true (Some x)] = Ok [LStruct [] 0 false (Some y)].
Proof. exists (mkMeta (fun _ => Err KeyError) (fun _ _ => 0)), beside, (SSingle (tpu 5 3) None), (SSingle (cpu 15 3 "") None). vm_compute. reflexivity. Qed.
Print Assumptions C83_weak_type_refuted.

(** ** Final specs *)

(** Each value is put on the sharding of the spec at its place, with its content; this is so exactly if each value has a spec with a sharding *)
Theorem C83_final : forall t f u, to_final_specs t f = Ok u <-> List.length t = List.length f /\ Forall2 (fun xf y => exists s, snd xf = FSharding s /\ y = VArray (match fst xf with VArray v _ => v | VOther v => v end) s) (combine t f) u.
Proof.
  intros t f u. unfold to_final_specs. destruct (Nat.eqb_spec (List.length t) (List.length f)) as [e | ne]; [|split; [discriminate | tauto]]. rewrite sequence_forall2. split.
  - intro H. split; [exact e|]. revert H. apply Forall2_impl'. intros [x [s|]] y; cbn; [|discriminate]. intro H. injection H as <-. now exists s.
  - intros [_ H]. revert H. apply Forall2_impl'. intros [x fs] y (s & H1 & H2). cbn in *. subst. reflexivity.
Qed.
Print Assumptions C83_final.

Example C83_final_example : to_final_specs [VArray 3 (SSingle w0 None); VOther 4] [FSharding (SSingle (tpu 5 3) None); FSharding (SSingle (tpu 6 4) None)] = Ok [VArray 3 (SSingle (tpu 5 3) None); VArray 4 (SSingle (tpu 6 4) None)].
Proof. vm_compute. reflexivity. Qed.

(** `to_final_specs` asks whether a spec has a sharding, but only around the log line: a spec without one is an AttributeError for any value, instead of leaving the value where it is. *)
Theorem C83_final_guard_refuted : exists f, forall x, to_final_specs [x] [f] = Err AttributeError.
Proof. exists FNone. reflexivity. Qed.
Print Assumptions C83_final_guard_refuted.

(** ** Zeros *)

(** For an index within the shape, the zeros have on each axis as many places as the index takes *)
Theorem C83_zeros : forall index shape, Forall2 within index shape -> exists sizes, zeros (Some index) shape = Ok sizes /\ List.length sizes = List.length shape /\
  Forall2 (fun xs n => (0 <= n)%Z /\ exists base, forall p, takes (fst xs) (snd xs) p <-> (base <= p < base + n)%Z) (combine index shape) sizes.
Proof.
  intros index shape F. exists (local_shape index shape). unfold zeros. rewrite (local_shape_nonneg index shape F). split; [reflexivity|]. split; [|now apply local_shape_within].
  induction F as [|x size index shape W F IH]; [reflexivity|]. destruct x; cbn; now rewrite IH.
Qed.
Print Assumptions C83_zeros.

Example C83_zeros_example : zeros (Some [ISlice (Some 2) (Some 5); ISlice None None; IInt 1; ISlice (Some 3) None])%Z [8; 4; 2; 6]%Z = Ok [3; 4; 1; 3]%Z /\ zeros None [8]%Z = Err AssertionError.
Proof. vm_compute. split; reflexivity. Qed.

(** Without an index there is an AssertionError; a slice that ends before it starts is a ValueError *)
Theorem C83_zeros_errors : (forall shape, zeros None shape = Err AssertionError) /\ (forall a b index size shape, (b < a)%Z -> zeros (Some (ISlice (Some a) (Some b) :: index)) (size :: shape) = Err ValueError).
Proof.
  split; [reflexivity|]. intros a b index size shape H. unfold zeros. cbn [local_shape forallb]. destruct (Z.leb_spec 0 (b - a)); [lia | reflexivity].
Qed.
Print Assumptions C83_zeros_errors.

Example C83_zeros_errors_example : zeros (Some [ISlice (Some 5) (Some 2)])%Z [8]%Z = Err ValueError.
Proof. vm_compute. reflexivity. Qed.
