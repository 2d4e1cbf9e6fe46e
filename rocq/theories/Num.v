(** * Num: the float64 operations the code uses, as an explicit record.

    Code over float64 is modelled once, over an arbitrary [Num].  Theorems about
    every [Num] hold bit-exactly for IEEE binary64 ([B64], file B64.v) and for
    exact extended-real arithmetic ([XR], file XReal.v).  [Num] is a plain record:
    it carries no laws, only operations. *)
From Verif Require Import Base.

Class Num : Type := mkNum {
  F : Type;
  ofZ : Z -> F;                  (** float64(n) and integer literals *)
  lit : Z -> positive -> F;      (** the literal n/d, correctly rounded, e.g. 0.015 = lit 15 1000 *)
  fadd : F -> F -> F;
  fsub : F -> F -> F;
  fmul : F -> F -> F;
  fdiv : F -> F -> F;
  fneg : F -> F;                 (** unary minus *)
  fabs : F -> F;                 (** math.Abs *)
  fsqrt : F -> F;                (** math.Sqrt *)
  flt : F -> F -> bool;          (** a < b *)
  fle : F -> F -> bool;          (** a <= b *)
  feq : F -> F -> bool;          (** a == b *)
  isNaN : F -> bool;             (** math.IsNaN *)
  isPInf : F -> bool;            (** math.IsInf(x, 1) *)
  isNInf : F -> bool;            (** math.IsInf(x, -1) *)
  signbit : F -> bool;           (** math.Signbit *)
  fround : F -> F;               (** math.Round: half away from zero *)
  ftrunc : F -> Z;               (** int(x) on values that fit; unspecified otherwise *)
  fatan : F -> F;                (** math.Atan *)
  fpow : F -> F -> F;            (** math.Pow *)
  fpi : F                        (** math.Pi *)
}.

Declare Scope f_scope.
Delimit Scope f_scope with f.
Bind Scope f_scope with F.
Infix "+~" := fadd (at level 50, left associativity).
Infix "-~" := fsub (at level 50, left associativity).
Infix "*~" := fmul (at level 40, left associativity).
Infix "/~" := fdiv (at level 40, left associativity).
Infix "<~" := flt (at level 70, no associativity).
Infix "<=~" := fle (at level 70, no associativity).
Infix "==~" := feq (at level 70, no associativity).
Notation "a >~ b" := (flt b a) (at level 70, no associativity, only parsing).
Notation "a >=~ b" := (fle b a) (at level 70, no associativity, only parsing).

Section Num.
Context {N : Num}.

(** Zero value of float64. *)
Definition fzero : F := ofZ 0.

(** math.IsInf(x, 0) *)
Definition isInf (x : F) : bool := isPInf x || isNInf x.

(** Go's math.Max / math.Min (the portable definition in package math:
    infinities first, then NaN, then signed zeros). *)
Definition fmax (x y : F) : F :=
  if isPInf x then x else if isPInf y then y
  else if isNaN x then x else if isNaN y then y
  else if (x ==~ fzero) && (x ==~ y) then (if signbit x then y else x)
  else if y <~ x then x else y.

Definition fmin (x y : F) : F :=
  if isNInf x then x else if isNInf y then y
  else if isNaN x then x else if isNaN y then y
  else if (x ==~ fzero) && (x ==~ y) then (if signbit x then x else y)
  else if x <~ y then x else y.

(** [append] in a loop, left to right summation etc. are written where used. *)
Definition fsum_from (a : F) (l : list F) : F := fold_left fadd l a.
End Num.
