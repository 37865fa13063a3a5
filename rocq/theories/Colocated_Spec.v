(** What is meant by the properties of the transport through colocated python. *)
From Coq Require Import List Bool Arith NArith ZArith String Ascii.
From Verif Require Import Base StepName_Model Colocated_Model.
Import ListNotations.
Local Open Scope string_scope.
Local Open Scope list_scope.
Local Open Scope nat_scope.

(** A digit *)
Definition numeral (c : ascii) : Prop := In c (list_ascii_of_string "0123456789").

(** The text has the marker with a digit after it *)
Definition has_id (l : list ascii) : Prop := exists pre c post, l = pre ++ list_ascii_of_string "PjRtIFRTDeviceId=" ++ c :: post /\ numeral c.

(** An id stands for a CPU device: as its global id or its local id *)
Definition stands (i : N) (d : dev) : Prop := d_platform d = "cpu" /\ (ifrt_id d = Some i \/ d_id d = i).

(** No id stands for two devices *)
Definition clear (l : list dev) : Prop := forall i a b, In a l -> In b l -> stands i a -> stands i b -> d_obj a = d_obj b.

(** Objects are what they are: equal objects are equal devices *)
Definition objects (l : list dev) : Prop := forall a b, In a l -> In b l -> d_obj a = d_obj b -> a = b.

(** The same client, id and platform *)
Definition alike (a b : dev) : Prop := d_client a = d_client b /\ d_id a = d_id b /\ d_platform a = d_platform b.

(** A list without some of its elements *)
Inductive sub {A : Type} : list A -> list A -> Prop :=
  | sub_nil : sub [] []
  | sub_skip : forall x l m, sub l m -> sub l (x :: m)
  | sub_take : forall x l m, sub l m -> sub (x :: l) (x :: m).

(** The devices of a sharding *)
Definition devices (s : sharding) : list dev := match s with SSingle d _ => [d] | SNamed m _ _ => m_devices m | SOther _ => [] end.

(** What a sharding says besides its devices *)
Definition shape_of (s : sharding) : option (list string * list nat * list nat * list (list string)) * option string :=
  match s with SSingle _ k => (None, k) | SNamed m spec k => (Some (m_names m, m_types m, m_shape m, spec), k) | SOther _ => (None, None) end.

(** Of one of the two classes that can be moved *)
Definition movable (s : sharding) : Prop := match s with SOther _ => False | _ => True end.

(** The places that an element of an index takes of an axis *)
Definition takes (x : idx) (size p : Z) : Prop :=
  (0 <= p < size)%Z /\ match x with
  | ISlice a b => match a with None => True | Some s => (s <= p)%Z end /\ match b with None => True | Some s => (p < s)%Z end
  | IInt i => p = i
  end.

(** An element of an index within an axis *)
Definition within (x : idx) (size : Z) : Prop :=
  match x with
  | ISlice a b => (0 <= match a with None => 0 | Some s => s end <= match b with None => size | Some s => s end)%Z /\ (match b with None => size | Some s => s end <= size)%Z
  | IInt i => (0 <= i < size)%Z
  end.
