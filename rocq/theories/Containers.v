(** * Containers: model of container/comparable.go, container/queue/queue.go and
    container/bst/bst.go. *)
From Verif Require Import Base Num.
Set Implicit Arguments.

(* ------------------------------------------------------------------ *)
(** ** container/queue *)

(** container/queue/queue.go:8-10.  [Queue] wraps container/list; the doubly
    linked list is modelled by the sequence of its values, front first. *)
Definition queue (A : Type) := list A.
(** queue.go:13-17 *)
Definition qNew {A} : queue A := [].
(** queue.go:20-22: PushBack *)
Definition qEnqueue {A} (q : queue A) (v : A) : queue A := q ++ [v].
(** queue.go:25-35: panics on an empty queue *)
Definition qDequeue {A} (q : queue A) : res (A * queue A) :=
  match q with [] => Panic | v :: q' => Ok (v, q') end.
(** queue.go:38-40 *)
Definition qEmpty {A} (q : queue A) : bool := len q =? 0.

(* ------------------------------------------------------------------ *)
(** ** container/comparable.go *)

(** Values the code compares.  User types implementing [Comparable]
    (comparable.go:15-17) are not modelled; any other dynamic type panics. *)
Inductive iface {N : Num} : Type :=
| VFloat (f : F)
| VInt (z : Z)
| VOther.
Arguments iface N : clear implicits.

(** comparable.go:30-40 *)
Definition compareFloat64 {N : Num} (a b : F) : Z :=
  if a <~ b then -1 else if b <~ a then 1 else 0.
(** comparable.go:42-52 *)
Definition compareInt64 (a b : Z) : Z :=
  if a <? b then -1 else if b <? a then 1 else 0.
(** comparable.go:14-28: the second argument is asserted to have the first's
    type, so mixed types panic. *)
Definition Compare {N : Num} (a b : iface N) : res Z :=
  match a, b with
  | VFloat x, VFloat y => Ok (compareFloat64 x y)
  | VInt x, VInt y => Ok (compareInt64 x y)
  | _, _ => Panic
  end.

(* ------------------------------------------------------------------ *)
(** ** container/bst *)

(** bst.go:8-17.  Nodes are owned by a single parent and never shared, so the
    pointer structure is an inductive tree ([Leaf] is the nil pointer). *)
Inductive tree (V : Type) : Type :=
| Leaf
| Node (l : tree V) (x : V) (r : tree V).
Arguments Leaf {V}.

Section Bst.
Variable V : Type.
Variable cmp : V -> V -> res Z.      (** container.Compare *)

(** bst.go:32-61: walk down, left when Compare(new, cur) <= 0 *)
Fixpoint tInsert (t : tree V) (v : V) : res (tree V) :=
  match t with
  | Leaf => Ok (Node Leaf v Leaf)
  | Node l x r =>
      c <- cmp v x ;;
      if c <=? 0 then l' <- tInsert l v ;; Ok (Node l' x r)
      else r' <- tInsert r v ;; Ok (Node l x r')
  end.

(** bst.go:24-29 *)
Fixpoint tInserts (t : tree V) (vs : list V) : res (tree V) :=
  match vs with
  | [] => Ok t
  | v :: vs' => t' <- tInsert t v ;; tInserts t' vs'
  end.

(** bst.go:136-150 with the removal at bst.go:115 of the node found: value of the
    leftmost node and the tree without it (its right child takes its place). *)
Fixpoint takeMin (l : tree V) (x : V) (r : tree V) : V * tree V :=
  match l with
  | Leaf => (x, r)
  | Node ll lx lr => let '(m, l') := takeMin ll lx lr in (m, Node l' x r)
  end.

(** bst.go:108-133: remove the root of a subtree.  With two children the value
    of the right subtree's minimum replaces it (109-116); otherwise the only
    child, or nil, takes its place (117-132). *)
Definition removeNode (l : tree V) (r : tree V) : tree V :=
  match l, r with
  | Node _ _ _, Node rl rx rr => let '(m, r') := takeMin rl rx rr in Node l m r'
  | Node _ _ _, Leaf => l
  | Leaf, _ => r
  end.

(** bst.go:64-85 *)
Fixpoint tRemove (t : tree V) (v : V) : res (tree V * bool) :=
  match t with
  | Leaf => Ok (Leaf, false)
  | Node l x r =>
      c <- cmp v x ;;
      if c =? 0 then Ok (removeNode l r, true)
      else if c =? -1 then '(l', b) <- tRemove l v ;; Ok (Node l' x r, b)
      else '(r', b) <- tRemove r v ;; Ok (Node l x r', b)
  end.

(** bst.go:88-95, 136-150: nil on an empty tree *)
Fixpoint tMin (t : tree V) : option V :=
  match t with
  | Leaf => None
  | Node l x _ => match l with Leaf => Some x | _ => tMin l end
  end.

(** bst.go:98-105, 153-167 *)
Fixpoint tMax (t : tree V) : option V :=
  match t with
  | Leaf => None
  | Node _ x r => match r with Leaf => Some x | _ => tMax r end
  end.
End Bst.

(** A history of calls on a tree and what each call returned. *)
Inductive bop (V : Type) := BInsert (v : V) | BInserts (vs : list V) | BRemove (v : V) | BMin | BMax.
Arguments BMin {V}.
Arguments BMax {V}.
Inductive bout (V : Type) := ONone | OBool (b : bool) | OVal (v : option V).
Arguments ONone {V}.
Arguments OBool {V} b.

Definition bstep {V} (cmp : V -> V -> res Z) (t : tree V) (o : bop V) : res (tree V * bout V) :=
  match o with
  | BInsert v => t' <- tInsert cmp t v ;; Ok (t', ONone)
  | BInserts vs => t' <- tInserts cmp t vs ;; Ok (t', ONone)
  | BRemove v => '(t', b) <- tRemove cmp t v ;; Ok (t', OBool b)
  | BMin => Ok (t, OVal (tMin t))
  | BMax => Ok (t, OVal (tMax t))
  end.

Fixpoint brun {V} (cmp : V -> V -> res Z) (t : tree V) (os : list (bop V))
  : res (tree V * list (bout V)) :=
  match os with
  | [] => Ok (t, [])
  | o :: os' =>
      '(t1, r) <- bstep cmp t o ;;
      '(t2, rs) <- brun cmp t1 os' ;;
      Ok (t2, r :: rs)
  end.

(** Histories of a queue. *)
Inductive qop (A : Type) := QEnq (v : A) | QDeq | QEmpty.
Arguments QDeq {A}.
Arguments QEmpty {A}.
Inductive qout (A : Type) := QUnit | QVal (v : A) | QBool (b : bool).
Arguments QUnit {A}.
Arguments QBool {A} b.

Definition qstep {A} (q : queue A) (o : qop A) : res (queue A * qout A) :=
  match o with
  | QEnq v => Ok (qEnqueue q v, QUnit)
  | QDeq => '(v, q') <- qDequeue q ;; Ok (q', QVal v)
  | QEmpty => Ok (q, QBool (qEmpty q))
  end.

Fixpoint qrun {A} (q : queue A) (os : list (qop A)) : res (queue A * list (qout A)) :=
  match os with
  | [] => Ok (q, [])
  | o :: os' =>
      '(q1, r) <- qstep q o ;;
      '(q2, rs) <- qrun q1 os' ;;
      Ok (q2, r :: rs)
  end.
