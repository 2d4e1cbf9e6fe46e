(** * Regression: model of utils/regression.go. *)
From Verif Require Import Base Num.
Set Implicit Arguments.

Section Reg.
Context {N : Num}.
Notation fl := (list F).

(** The four running sums (sumX, sumX2, sumY, sumXY). *)
Definition sums4 := (F * F * F * F)%type.
Definition s4_zero : sums4 := (fzero, fzero, fzero, fzero).
(** [sumX += x[i]; sumX2 += x[i]*x[i]; sumY += y[i]; sumXY += x[i]*y[i]],
    regression.go:15-18 and 44-47 *)
Definition s4_add (s : sums4) (x y : F) : sums4 :=
  let '(sx, sx2, sy, sxy) := s in
  (sx +~ x, sx2 +~ x *~ x, sy +~ y, sxy +~ x *~ y).
(** the subtractions at regression.go:52-55 *)
Definition s4_sub (s : sums4) (x y : F) : sums4 :=
  let '(sx, sx2, sy, sxy) := s in
  (sx -~ x, sx2 -~ x *~ x, sy -~ y, sxy -~ x *~ y).
(** slope and intercept, regression.go:22-23 and 59-60 *)
Definition s4_line (n : F) (s : sums4) : F * F :=
  let '(sx, sx2, sy, sxy) := s in
  let m := (n *~ sxy -~ sx *~ sy) /~ (n *~ sx2 -~ sx *~ sx) in
  let b := (sy -~ m *~ sx) /~ n in
  (m, b).

(** regression.go:11-26; the pair is (m, b) *)
Definition LeastSquare (x y : fl) : res (F * F) :=
  s <- for_ 0 (len x) (fun i s =>
    xi <- get x i ;; yi <- get y i ;; Ok (s4_add s xi yi)) s4_zero ;;
  Ok (s4_line (ofZ (len x)) s).

(** regression.go:36-64 *)
Definition MovingLeastSquare (period : Z) (x y : fl) : res (fl * fl) :=
  m <- make fzero (len x) ;;
  b <- make fzero (len x) ;;
  '(_, m, b) <- for_ 0 (len x) (fun i '(s, m, b) =>
    xi <- get x i ;; yi <- get y i ;;
    let s := s4_add s xi yi in
    '(s, n) <-
      (if i >=? period then
         xo <- get x (i - period) ;; yo <- get y (i - period) ;;
         Ok (s4_sub s xo yo, ofZ period)
       else Ok (s, ofZ (i + 1))) ;;
    let '(mi, bi) := s4_line n s in
    m <- set m i mi ;;
    b <- set b i bi ;;
    Ok (s, m, b)) (s4_zero, m, b) ;;
  Ok (m, b).

(** regression.go:69-79 *)
Definition LinearRegressionUsingLeastSquare (x y : fl) : res fl :=
  '(m, b) <- LeastSquare x y ;;
  r <- make fzero (len x) ;;
  for_ 0 (len x) (fun i r => xi <- get x i ;; set r i (m *~ xi +~ b)) r.

(** regression.go:84-94 *)
Definition MovingLinearRegressionUsingLeastSquare (period : Z) (x y : fl) : res fl :=
  '(m, b) <- MovingLeastSquare period x y ;;
  r <- make fzero (len x) ;;
  for_ 0 (len x) (fun i r =>
    mi <- get m i ;; xi <- get x i ;; bi <- get b i ;;
    set r i (mi *~ xi +~ bi)) r.
End Reg.
