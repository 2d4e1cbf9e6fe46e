(** * Specification of the containers, independent of their implementation. *)
From Coq Require Import Permutation.
From Verif Require Import Base Num Containers.
Set Implicit Arguments.

(** A bag (multiset) is a list up to order. *)
Section Bag.
Variable V : Type.
Variable veq vle : V -> V -> Prop.

(** [bag_step b o out b']: a bag holding [b] may answer [out] to [o] and then
    hold [b']. *)
Inductive bag_step : list V -> bop V -> bout V -> list V -> Prop :=
| bag_insert b v b' :
    Permutation b' (v :: b) -> bag_step b (BInsert v) ONone b'
| bag_inserts b vs b' :
    Permutation b' (vs ++ b) -> bag_step b (BInserts vs) ONone b'
| bag_remove_present b v w b' :
    veq v w -> Permutation b (w :: b') -> bag_step b (BRemove v) (OBool true) b'
| bag_remove_absent b v :
    (forall w, In w b -> ~ veq v w) -> bag_step b (BRemove v) (OBool false) b
| bag_min_empty : bag_step [] BMin (OVal None) []
| bag_min b m :
    In m b -> (forall y, In y b -> vle m y) -> bag_step b BMin (OVal (Some m)) b
| bag_max_empty : bag_step [] BMax (OVal None) []
| bag_max b m :
    In m b -> (forall y, In y b -> vle y m) -> bag_step b BMax (OVal (Some m)) b.

Inductive bag_run : list V -> list (bop V) -> list (bout V) -> list V -> Prop :=
| bag_nil b : bag_run b [] [] b
| bag_cons b o r b1 os rs b2 :
    bag_step b o r b1 -> bag_run b1 os rs b2 -> bag_run b (o :: os) (r :: rs) b2.
End Bag.

(** Order and equality of dynamic values of the same type. *)
Definition ivle {N : Num} (a b : iface N) : Prop :=
  match a, b with
  | VFloat x, VFloat y => (x <=~ y) = true
  | VInt x, VInt y => x <= y
  | _, _ => False
  end.
Definition iveq {N : Num} (a b : iface N) : Prop :=
  match a, b with
  | VFloat x, VFloat y => (x ==~ y) = true
  | VInt x, VInt y => x = y
  | _, _ => False
  end.

(** Values appearing in an operation. *)
Definition bop_vals {V} (o : bop V) : list V :=
  match o with BInsert v | BRemove v => [v] | BInserts vs => vs | BMin | BMax => [] end.

Definition float_not_nan {N : Num} (v : iface N) : Prop :=
  match v with VFloat x => isNaN x = false | _ => False end.
Definition is_int {N : Num} (v : iface N) : Prop :=
  match v with VInt _ => True | _ => False end.

(** ** Queues *)
(** Values enqueued by a history, and values its Dequeue calls returned. *)
Fixpoint enqueued {A} (os : list (qop A)) : list A :=
  match os with
  | [] => []
  | QEnq v :: os' => v :: enqueued os'
  | _ :: os' => enqueued os'
  end.
Fixpoint dequeued {A} (rs : list (qout A)) : list A :=
  match rs with
  | [] => []
  | QVal v :: rs' => v :: dequeued rs'
  | _ :: rs' => dequeued rs'
  end.
Definition is_deq {A} (o : qop A) : bool := match o with QDeq => true | _ => false end.
Definition deqs {A} (os : list (qop A)) : nat := length (filter is_deq os).
(** No prefix of the history dequeues more than it enqueued. *)
Definition never_underflows {A} (os : list (qop A)) : Prop :=
  forall n, (deqs (firstn n os) <= length (enqueued (firstn n os)))%nat.

(** Number of values a bst history inserts, and of successful Removes. *)
Fixpoint inserted {V} (os : list (bop V)) : nat :=
  match os with
  | [] => 0
  | BInsert _ :: os' => 1 + inserted os'
  | BInserts vs :: os' => length vs + inserted os'
  | _ :: os' => inserted os'
  end.
Fixpoint removals {V} (rs : list (bout V)) : nat :=
  match rs with
  | [] => 0
  | OBool true :: rs' => 1 + removals rs'
  | _ :: rs' => removals rs'
  end.
