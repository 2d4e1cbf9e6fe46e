(** * SpecChan: what the channel theorems say. *)
From Verif Require Import Base Chan.
Set Implicit Arguments.
Open Scope nat_scope.

Section SpecChan.
Variable V : Type.

(** the list a pipeline stands for *)
Fixpoint zip_with (A B C : Type) (f : A -> B -> C) (xs : list A) (ys : list B) : list C :=
  match xs, ys with
  | x :: xs', y :: ys' => f x y :: zip_with f xs' ys'
  | _, _ => []
  end.
(** running sums: sum := sum + c - b over the pairs (c, b) *)
Fixpoint running (add sub : V -> V -> V) (sum : V) (cs bs : list V) : list V :=
  match cs, bs with
  | c :: cs', b :: bs' => let s := sub (add sum c) b in s :: running add sub s cs' bs'
  | _, _ => []
  end.
Fixpoint meaning (p : pipe V) : list V :=
  match p with
  | PSource _ xs => xs
  | PApply f p => map f (meaning p)
  | POperate op p q => zip_with op (meaning p) (meaning q)
  | PShift count fill p => repeat fill (Z.to_nat count) ++ meaning p
  | PSkip count p => skipn (Z.to_nat count) (meaning p)
  | PPipe _ p => meaning p
  | PSma zero add sub scale period p =>
      map scale (running add sub zero (meaning p) (repeat zero (Z.to_nat period) ++ meaning p))
  end.

(** Whatever the scheduler does from [s], the program stops after exactly [N] steps and
    always in the state [z]: no run is longer, and every run can only stop in [z]. *)
Definition always_ends (s : cfg V) (N : nat) (z : cfg V) : Prop :=
  stuck z /\
  forall n c, steps n s c -> n <= N /\ steps (N - n) c z /\ (stuck c -> c = z /\ n = N).

(** all goroutines have returned, the caller (the last entry) with [r] *)
Definition returned (z : cfg V) (r : result V) : Prop :=
  exists gs ch, z = gs ++ [(ch, Done r)] /\ Forall (fun g => snd g = Done (@Quiet V)) gs.

(** CheckEquals: pair [j] ends at index [i] on both sides, and everything compared before
    (all pairs at smaller indices, earlier pairs at index [i]) was there and equal *)
Definition agree (eqb : V -> V -> bool) (pairs : list (list V * list V)) : Prop :=
  exists i j a e, nth_error pairs j = Some (a, e) /\ length a = i /\ length e = i /\
    forall j' a' e', nth_error pairs j' = Some (a', e') -> forall i', (i' < i \/ (i' = i /\ j' < j)) ->
      exists u w, nth_error a' i' = Some u /\ nth_error e' i' = Some w /\ eqb u w = true.
Fixpoint paired (l : list (list V)) : list (list V * list V) :=
  match l with a :: e :: r => (a, e) :: paired r | _ => [] end.
End SpecChan.
