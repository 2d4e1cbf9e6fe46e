(** * Lits: binary64 literals for the examples beside the theorems. *)
From Verif Require Import Base Num B64.
Notation EX := (B64 ex_lib).
(** the float64 nearest to n, and to a/b *)
Definition fz (n : Z) : @F EX := b_ofZ n.
Definition fq (a b : Z) : @F EX := @fdiv EX (fz a) (fz b).
Definition fzs (l : list Z) : list (@F EX) := map fz l.
