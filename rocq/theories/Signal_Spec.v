(** Independent vocabulary for C33. *)
From Coq Require Import List Bool Arith NArith String Ascii.
From Verif Require Import Base Signal_Model.
Import ListNotations.

(** A map from keys to values. *)
Definition kv : Type := string -> option string.

Definition begins (p k : string) : Prop := exists r, k = (p ++ r)%string.
Definition is_directory (k : string) : Prop := exists r, k = (r ++ "/")%string.
Definition no_slash (s : string) : Prop := ~ In "/"%char (list_ascii_of_string s).

Definition updated (m : kv) (k : string) (v : option string) (m' : kv) : Prop :=
  m' k = v /\ forall x, x <> k -> m' x = m x.

(** What one operation does to a map and gives back.  A blocking get ends only with
    the value of its key, or in vain while the key is absent. *)
Inductive does (m : kv) : op -> ret -> kv -> Prop :=
| does_set : forall k v w m', (m k = None \/ w = true) -> updated m k (Some v) m' -> does m (OSet k v w) (RUnit (Ok tt)) m'
| does_set_refused : forall k v, m k <> None -> does m (OSet k v false) (RUnit (Err KeyError)) m
| does_try_get : forall k, does m (OTryGet k) (ROpt (m k)) m
| does_delete : forall k m', ~ is_directory k -> updated m k None m' -> does m (ODelete k) (RUnit (Ok tt)) m'
| does_delete_directory : forall k m', is_directory k ->
    (forall x, begins k x -> m' x = None) -> (forall x, ~ begins k x -> m' x = m x) -> does m (ODelete k) (RUnit (Ok tt)) m'
| does_dir_get : forall k l, is_directory k -> NoDup (map fst l) ->
    (forall x v, In (x, v) l <-> m x = Some v /\ begins k x) -> does m (ODirGet k) (RList (Ok l)) m
| does_dir_get_refused : forall k, ~ is_directory k -> does m (ODirGet k) (RList (Err ValueError)) m
| does_get : forall k v, m k = Some v -> does m (OBlockingGet k) (RVal (Ok v)) m
| does_timeout : forall k, m k = None -> does m (OBlockingGet k) (RVal (Err TimeoutError)) m
| does_barrier : forall k, does m (OBarrier k) (RUnit (Err NotImplementedError)) m.

(** A sequential history. *)
Inductive legal : kv -> list (op * ret) -> kv -> Prop :=
| legal_nil : forall m m', (forall k, m' k = m k) -> legal m [] m'
| legal_cons : forall m o r m1 h m2, does m o r m1 -> legal m1 h m2 -> legal m ((o, r) :: h) m2.

Definition empty : kv := fun _ => None.
Definition view (d : data) : kv := fun k => get k d.

Definition run (n : nat) (es : list event) (st : state) : Prop := play (initial n) es = Some st.

(** A call of [key_value_dir_get] on a directory. *)
Definition lists_directory (e : event) : Prop := exists t k, e = Call t (ODirGet k) /\ is_directory k.

(** The operations called one after the other. *)
Definition sequentially (ops : list op) : list event := map (Call 0) ops.

(** No thread is in the middle of [key_value_dir_get]. *)
Definition none_fetching (st : state) : Prop := forall t k todo got, nth_error (threads st) t <> Some (Fetching k todo got).

(** The store changes only while no thread is in the middle of [key_value_dir_get]. *)
Fixpoint quiet (st : state) (es : list event) : Prop :=
  match es with
  | [] => True
  | e :: r =>
      match e with Call _ (OSet _ _ _) | Call _ (ODelete _) => none_fetching st | _ => True end /\
      match step st e with Some st' => quiet st' r | None => True end
  end.
