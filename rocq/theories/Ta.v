(** * Ta: model of utils/ta/ta.go, function by function.

    Every function is over an arbitrary [Num]; slices are lists, [int] is [Z].
    Line numbers refer to utils/ta/ta.go. *)
From Verif Require Import Base Num Containers.
Set Implicit Arguments.

Section Ta.
Context {N : Num}.
Notation fl := (list F).

(** Common prologue of the four linear-regression functions: the constants
    (lines 16-23) and the initial sums over the first [p] values (25-33).
    The countdown loop [for i != 0 { i--; ... inReal[today-i] }] reads index
    k = today - i = 0, 1, ..., p-1 with weight i = p-1-k.  For a negative period it
    never reaches i = 0 and runs off the end of the slice: it panics. *)
Definition lr_sumX (p : Z) : F := ofZ p *~ (ofZ p -~ ofZ 1) *~ lit 1 2.
Definition lr_sumXSqr (p : Z) : F :=
  ofZ p *~ (ofZ p -~ ofZ 1) *~ (ofZ 2 *~ ofZ p -~ ofZ 1) /~ ofZ 6.
Definition lr_divisor (p : Z) : F :=
  lr_sumX p *~ lr_sumX p -~ ofZ p *~ lr_sumXSqr p.
Definition lr_init (xs : fl) (p : Z) : res (F * F) :=       (* (sumY, sumXY) *)
  if p <? 0 then Panic else
  for_ 0 p (fun k '(sy, sxy) =>
    v <- get xs k ;;
    Ok (sy +~ v, sxy +~ ofZ (p - 1 - k) *~ v)) (fzero, fzero).

(** The loop [for today < len(inReal)], lines 34-46, with the last assignment
    given by [out m sumY]; [outIdx] and [today] advance together. *)
Definition lr_loop (out : F -> F -> F) (xs : fl) (p : Z) : res fl :=
  outReal <- make fzero (len xs) ;;
  '(sy0, sxy0) <- lr_init xs p ;;
  '(_, _, r) <- for_ (p - 1) (len xs) (fun today '(sy, sxy, r) =>
    '(sy, sxy) <-
      (if today >? p - 1 then
         t2 <- get xs (today - p) ;;
         v <- get xs today ;;
         Ok (sy +~ (v -~ t2), sxy +~ (sy -~ ofZ p *~ t2))
       else Ok (sy, sxy)) ;;
    let m := (ofZ p *~ sxy -~ lr_sumX p *~ sy) /~ lr_divisor p in
    r <- set r today (out m sy) ;;
    Ok (sy, sxy, r)) (sy0, sxy0, outReal) ;;
  Ok r.

(** 12-48 *)
Definition LinearReg (xs : fl) (p : Z) : res fl :=
  lr_loop (fun m sy => (sy -~ m *~ lr_sumX p) /~ ofZ p +~ m *~ (ofZ p -~ ofZ 1)) xs p.
(** 51-86; 180.0 / math.Pi is a constant expression evaluated exactly and then
    rounded; it is represented by the quotient. *)
Definition LinearRegAngle (xs : fl) (p : Z) : res fl :=
  lr_loop (fun m _ => fatan m *~ (ofZ 180 /~ fpi)) xs p.
(** 89-124 *)
Definition LinearRegIntercept (xs : fl) (p : Z) : res fl :=
  lr_loop (fun m sy => (sy -~ m *~ lr_sumX p) /~ ofZ p) xs p.
(** 127-161 *)
Definition LinearRegSlope (xs : fl) (p : Z) : res fl :=
  lr_loop (fun m _ => m) xs p.

(** 163-190; identical text at 973-998 (TrueRange) *)
Definition tr1 (h l pc : F) : F :=
  let g := h -~ l in
  let v2 := fabs (pc -~ h) in
  let g := if g <~ v2 then v2 else g in
  let v3 := fabs (pc -~ l) in
  if g <~ v3 then v3 else g.
Definition TRange (hs ls cs : fl) : res fl :=
  outReal <- make fzero (len cs) ;;
  for_ 1 (len cs) (fun today r =>
    tempLT <- get ls today ;;
    tempHT <- get hs today ;;
    tempCY <- get cs (today - 1) ;;
    set r today (tr1 tempHT tempLT tempCY)) outReal.
Definition TrueRange (hs ls cs : fl) : res fl :=
  outReal <- make fzero (len cs) ;;
  for_ 1 (len cs) (fun today r =>
    tempLT <- get ls today ;;
    tempHT <- get hs today ;;
    tempCY <- get cs (today - 1) ;;
    set r today (tr1 tempHT tempLT tempCY)) outReal.

(** 202-222 *)
Definition SD (xs : fl) : F :=
  let sum := fold_left fadd xs fzero in
  let mean := sum /~ ofZ (len xs) in
  let sq := fold_left (fun s k => let d := k -~ mean in s +~ d *~ d) xs fzero in
  fsqrt (sq /~ ofZ (len xs)).

(** [var sum float64; for j := lo; j <= i; j++ { sum += src[j] }] *)
Definition sum_range (xs : fl) (lo hi : Z) : res F :=
  for_ lo hi (fun j s => v <- get xs j ;; Ok (s +~ v)) fzero.

(** 225-241 *)
Definition MA (xs : fl) (length : Z) : res fl :=
  let n := len xs in
  ma <- make fzero n ;;
  if (length <=? 0) || (n <? length) then Ok ma else
  for_ (length - 1) n (fun i ma =>
    sum <- sum_range xs (i - length + 1) (i + 1) ;;
    set ma i (sum /~ ofZ length)) ma.

(** 244-267 *)
Definition sma_clean (val : F) : F :=
  if isNaN val || isNInf val then fzero else val.
Definition Sma (period : Z) (values : fl) : res fl :=
  result <- make fzero (len values) ;;
  '(_, r) <- range_ values (fun i value '(sum, r) =>
    let sum := sum +~ value in
    '(sum, count) <-
      (if i >=? period then
         old <- get values (i - period) ;; Ok (sum -~ old, period)
       else Ok (sum, i + 1)) ;;
    let val := sum /~ ofZ count in
    r <- set r i (sma_clean val) ;;
    Ok (sum, r)) (fzero, result) ;;
  Ok r.

(** 291-311 *)
Definition Rma (period : Z) (values : fl) : res fl :=
  result <- make fzero (len values) ;;
  '(_, r) <- range_ values (fun i value '(sum, r) =>
    if i <? 1 then Ok (sum, r) else
    '(sum, count) <-
      (if i <? period then Ok (sum +~ value, i + 1)
       else prev <- get r (i - 1) ;;
            Ok (prev *~ ofZ (period - 1) +~ value, period)) ;;
    r <- set r i (sum /~ ofZ count) ;;
    Ok (sum, r)) (fzero, result) ;;
  Ok r.

(** 323-339 *)
Definition Ema (period : Z) (values : fl) : res fl :=
  result <- make fzero (len values) ;;
  range_ values (fun i value r =>
    if i >? 0 then
      prev <- get r (i - 1) ;;
      set r i ((ofZ 2 *~ value +~ ofZ (period - 1) *~ prev) /~ ofZ (period + 1))
    else set r i value) result.

(** 342-380 *)
Definition Wma (period : Z) (values : fl) : res fl :=
  result <- make fzero (len values) ;;
  if period =? 1 then Ok values else
  let startIdx := period - 1 in
  let divider := Z.shiftr (period * (period + 1)) 1 in
  '(periodSum, periodSub) <- for_ 0 startIdx (fun inIdx '(periodSum, periodSub) =>
     tempReal <- get values inIdx ;;
     Ok (periodSum +~ tempReal *~ ofZ (inIdx + 1), periodSub +~ tempReal)) (fzero, fzero) ;;
  '(_, _, _, r) <- for_ (Z.max 0 startIdx) (len values)
     (fun inIdx '(periodSum, periodSub, trailingValue, r) =>
        let k := inIdx - Z.max 0 startIdx in       (* iterations so far *)
        tempReal <- get values inIdx ;;
        let periodSub := (periodSub +~ tempReal) -~ trailingValue in
        let periodSum := periodSum +~ tempReal *~ ofZ period in
        trailingValue <- get values k ;;              (* trailingIdx = k *)
        r <- set r (period - 1 + k) (periodSum /~ ofZ divider) ;;  (* outIdx *)
        Ok (periodSum -~ periodSub, periodSub, trailingValue, r))
     (periodSum, periodSub, fzero, result) ;;
  Ok r.

(** 383-393 *)
Definition MeanDeviation (prices : fl) (period : Z) (ma : fl) : res fl :=
  md <- make fzero (len prices) ;;
  for_ (period - 1) (len prices) (fun i md =>
    sum <- for_ (i - period + 1) (i + 1) (fun j s =>
             v <- get prices j ;; m <- get ma i ;; Ok (s +~ fabs (v -~ m))) fzero ;;
    set md i (sum /~ ofZ period)) md.

(** 396-412 *)
Definition CCI (hlc3 : fl) (period smaPeriod : Z) : res fl :=
  ccis <- make fzero (len hlc3) ;;
  ma <- Sma smaPeriod hlc3 ;;
  md <- MeanDeviation hlc3 period ma ;;
  for_ (period - 1) (len hlc3) (fun i ccis =>
    tp <- get hlc3 i ;; m <- get ma i ;; d <- get md i ;;
    set ccis i ((tp -~ m) /~ (lit 15 1000 *~ d))) ccis.

(** 1041-1067 *)
Definition Dev (source : fl) (length : Z) : res fl :=
  let n := len source in
  md <- make fzero n ;;
  if (length <=? 0) || (n <? length) then Ok md else
  for_ (length - 1) n (fun i md =>
    sum <- sum_range source (i - length + 1) (i + 1) ;;
    let ma := sum /~ ofZ length in
    devSum <- for_ (i - length + 1) (i + 1) (fun j s =>
                v <- get source j ;; Ok (s +~ fabs (v -~ ma))) fzero ;;
    set md i (devSum /~ ofZ length)) md.

(** 415-435; [factor] is not used *)
Definition AiCoinCCI (close : fl) (period : Z) (factor : F) : res fl :=
  matp <- MA close period ;;
  md <- Dev close period ;;
  cci <- make fzero (len close) ;;
  for_ 0 (len close) (fun i cci =>
    d <- get md i ;;
    if d ==~ fzero then set cci i fzero else
    c <- get close i ;; m <- get matp i ;;
    set cci i ((c -~ m) /~ (lit 15 1000 *~ d))) cci.

(** 440-471; [today] equals [outIdx] *)
Definition Atr (hs ls cs : fl) (p : Z) : res fl :=
  outReal <- make fzero (len cs) ;;
  if p <? 1 then Ok outReal else
  if p <=? 1 then TRange hs ls cs else
  tr <- TRange hs ls cs ;;
  prevATRTemp <- Rma p tr ;;
  prevATR <- get prevATRTemp p ;;
  outReal <- set outReal p prevATR ;;
  '(_, r) <- for_ (p + 1) (len cs) (fun i '(prev, r) =>
     t <- get tr i ;;
     let prev := ((prev *~ (ofZ p -~ ofZ 1)) +~ t) /~ ofZ p in
     r <- set r i prev ;;
     Ok (prev, r)) (prevATR, outReal) ;;
  Ok r.

(** 474-515 *)
Definition Natr (hs ls cs : fl) (p : Z) : res fl :=
  outReal <- make fzero (len cs) ;;
  if p <? 1 then Ok outReal else
  if p <=? 1 then TRange hs ls cs else
  tr <- TRange hs ls cs ;;
  prevATRTemp <- Sma p tr ;;
  prevATR <- get prevATRTemp p ;;
  tempValue <- get cs p ;;
  outReal <- (if negb (tempValue ==~ fzero)
              then set outReal p (prevATR /~ tempValue *~ ofZ 100)
              else set outReal p fzero) ;;
  '(_, r) <- for_ (p + 1) (len cs) (fun i '(prev, r) =>
     t <- get tr i ;;
     let prev := ((prev *~ (ofZ p -~ ofZ 1)) +~ t) /~ ofZ p in
     tv <- get cs i ;;
     r <- (if negb (tv ==~ fzero) then set r i (prev /~ tv *~ ofZ 100)
           else set r 0 fzero) ;;
     Ok (prev, r)) (prevATR, outReal) ;;
  Ok r.

(** 518-524 *)
Definition Cum (source : fl) : F := fold_left fadd source fzero.

(** Element-wise functions: [result := make(len); for i { result[i] = f(values[i]) }] *)
Definition map1 (f : F -> F) (values : fl) : res fl :=
  result <- make fzero (len values) ;;
  for_ 0 (len values) (fun i r => v <- get values i ;; set r i (f v)) result.
(** ... and over two slices, the result having the first one's length *)
Definition map2 (f : F -> F -> F) (values1 values2 : fl) : res fl :=
  result <- make fzero (len values1) ;;
  for_ 0 (len values1) (fun i r =>
    a <- get values1 i ;; b <- get values2 i ;; set r i (f a b)) result.

(** 527-535 *)
Definition MultiplyBy (values : fl) (multiplier : F) : res fl :=
  map1 (fun v => v *~ multiplier) values.
(** 538-547 *)
Definition Multiply (values1 values2 : fl) : res fl := map2 fmul values1 values2.
(** 550-552 *)
Definition DivideBy (values : fl) (per : F) : res fl := MultiplyBy values (ofZ 1 /~ per).
(** 555-568 *)
Definition div_clean (a b : F) : F :=
  let val := a /~ b in if isNaN val || isInf val then fzero else val.
Definition Divide (values1 values2 : fl) : res fl := map2 div_clean values1 values2.
(** 571-579 *)
Definition Add (values1 values2 : fl) : res fl := map2 fadd values1 values2.
(** 582-590 *)
Definition AddBy (values : fl) (addition : F) : res fl := map1 (fun v => v +~ addition) values.
(** 593-597 *)
Definition Subtract (values1 values2 : fl) : res fl :=
  subtract <- MultiplyBy values2 (ofZ (-1)) ;; Add values1 subtract.

(** 617-629 *)
Definition ShiftRightAndFillBy (period : Z) (fill : F) (values : fl) : res fl :=
  result <- make fzero (len values) ;;
  for_ 0 (len values) (fun i r =>
    if i <? period then set r i fill
    else v <- get values (i - period) ;; set r i v) result.
(** 632-634 *)
Definition ShiftRight (period : Z) (values : fl) : res fl :=
  ShiftRightAndFillBy period (ofZ 0) values.
(** 600-603 *)
Definition Diff (values : fl) (before : Z) : res fl :=
  s <- ShiftRight before values ;; Subtract values s.
(** 606-614 *)
Definition PercentDiff (values : fl) (before : Z) : res fl :=
  result <- make fzero (len values) ;;
  for_ before (len values) (fun i r =>
    a <- get values i ;; b <- get values (i - before) ;;
    set r i ((a -~ b) /~ b)) result.

(** 637-644 *)
Definition RoundDigits (value : F) (digits : Z) : F :=
  let n := fpow (ofZ 10) (ofZ digits) in fround (value *~ n) /~ n.
(** 647-655 *)
Definition RoundDigitsAll (values : fl) (digits : Z) : res fl :=
  map1 (fun v => RoundDigits v digits) values.
(** 658-668 *)
Definition GenerateNumbers (begin end_ step : F) : res fl :=
  let n := ftrunc (fround ((end_ -~ begin) /~ step)) in
  numbers <- make fzero n ;;
  for_ 0 n (fun i r => set r i (begin +~ step *~ ofZ i)) numbers.
(** 671-679 *)
Definition Pow (base : fl) (exponent : F) : res fl := map1 (fun v => fpow v exponent) base.
(** 682-694 *)
Definition ExtractSign (values : fl) : res fl :=
  map1 (fun v => if v >=~ ofZ 0 then ofZ 1 else ofZ (-1)) values.
(** 697-709 *)
Definition KeepPositives (values : fl) : res fl :=
  map1 (fun v => if v >~ ofZ 0 then v else ofZ 0) values.
(** 712-724 *)
Definition KeepNegatives (values : fl) : res fl :=
  map1 (fun v => if v <~ ofZ 0 then v else ofZ 0) values.

(** container.Compare on float64 values (all trees here hold float64) *)
Definition cmpF (a b : F) : res Z := Ok (compareFloat64 a b).
(** [bst.Max().(float64)]: the type assertion panics on nil *)
Definition assertF (o : option F) : res F :=
  match o with Some v => Ok v | None => Panic end.

(** 727-745 and 748-766 *)
Definition moving (pick : tree F -> option F) (period : Z) (values : fl) : res fl :=
  result <- make fzero (len values) ;;
  buffer <- make fzero period ;;
  '(_, _, r) <- for_ 0 (len values) (fun i '(t, buffer, r) =>
    v <- get values i ;;
    t <- tInsert cmpF t v ;;
    t <- (if i >=? period then
            m <- zmod i period ;;
            old <- get buffer m ;;
            '(t, _) <- tRemove cmpF t old ;; Ok t
          else Ok t) ;;
    m <- zmod i period ;;
    buffer <- set buffer m v ;;
    x <- assertF (pick t) ;;
    r <- set r i x ;;
    Ok (t, buffer, r)) (Leaf, buffer, result) ;;
  Ok r.
Definition Max (period : Z) (values : fl) : res fl := moving (@tMax F) period values.
Definition Min (period : Z) (values : fl) : res fl := moving (@tMin F) period values.

(** 773-785 and 792-803.  The loop counts i down from len-1 to len-lenght and
    breaks when i < 0: iteration k looks at index len-1-k, k < min(lenght, len). *)
Definition Highest (values : fl) (lenght : Z) : res F :=
  result <- get values (len values - 1) ;;
  for_ 0 (Z.min lenght (len values)) (fun k result =>
    v <- get values (len values - 1 - k) ;;
    Ok (if result <~ v then v else result)) result.
Definition Lowest (values : fl) (lenght : Z) : res F :=
  result <- get values (len values - 1) ;;
  for_ 0 (Z.min lenght (len values)) (fun k result =>
    v <- get values (len values - 1 - k) ;;
    Ok (if v <~ result then v else result)) result.

(** 806-820 and 823-837 *)
Definition pivots (pick : tree F -> option F) (values : fl) (left right : Z) : res fl :=
  pivot <- make fzero (len values) ;;
  for_ (left + right) (len values) (fun i pivot =>
    rolling <- slice values (i - right - left) (i + 1) ;;
    t <- tInserts cmpF Leaf rolling ;;
    m <- assertF (pick t) ;;
    c <- get values (i - right) ;;
    if c ==~ m then set pivot i m else Ok pivot) pivot.
Definition PivotHigh := pivots (@tMax F).
Definition PivotLow := pivots (@tMin F).

(** 840-879.  The left scan visits index-i for i = 0..left, stopping below 0; the
    right scan visits index+i for i = 0..right, stopping past the end. *)
Definition PivotMax (values : fl) (index left right : Z) : res (F * Z) :=
  '(leftVal, leftPos) <- for_ 0 (Z.min left index + 1) (fun i '(lv, lp) =>
     v <- get values (index - i) ;;
     Ok (if lv <~ v then (v, index - i) else (lv, lp))) (fzero, index) ;;
  '(rightVal, rightPos) <- for_ 0 (Z.min right (len values - 1 - index) + 1) (fun i '(rv, rp) =>
     v <- get values (index + i) ;;
     Ok (if rv <~ v then (v, index + i) else (rv, rp))) (fzero, index) ;;
  if rightVal <~ leftVal then Ok (leftVal, leftPos)
  else if leftVal <~ rightVal then Ok (rightVal, rightPos)
  else c <- get values index ;; Ok (c, index).

(** 882-921 *)
Definition PivotMin (values : fl) (index left right : Z) : res (F * Z) :=
  c <- get values index ;;
  '(leftVal, leftPos) <- for_ 0 (Z.min left index + 1) (fun i '(lv, lp) =>
     v <- get values (index - i) ;;
     Ok (if v <~ lv then (v, index - i) else (lv, lp))) (c, index) ;;
  '(rightVal, rightPos) <- for_ 0 (Z.min right (len values - 1 - index) + 1) (fun i '(rv, rp) =>
     v <- get values (index + i) ;;
     Ok (if v <~ rv then (v, index + i) else (rv, rp))) (c, index) ;;
  if leftVal <~ rightVal then Ok (leftVal, leftPos)
  else if rightVal <~ leftVal then Ok (rightVal, rightPos)
  else c <- get values index ;; Ok (c, index).

(** 924-939 *)
Definition Sum (period : Z) (values : fl) : res fl :=
  result <- make fzero (len values) ;;
  '(_, r) <- for_ 0 (len values) (fun i '(sum, r) =>
    v <- get values i ;;
    let sum := sum +~ v in
    sum <- (if i >=? period then old <- get values (i - period) ;; Ok (sum -~ old)
            else Ok sum) ;;
    r <- set r i sum ;;
    Ok (sum, r)) (fzero, result) ;;
  Ok r.

(** 942-950 *)
Definition Sqrt (values : fl) : res fl := map1 fsqrt values.
(** 953-961 *)
Definition Abs (values : fl) : res fl := map1 fabs values.
(** 964-970 *)
Definition Mean (values : fl) : F := fold_left fadd values fzero /~ ofZ (len values).

(** 1001-1038.  The do-while loop runs its body once at i = startIdx (or 0 when
    the period is below 2) before testing i < len. *)
Definition var_body (xs : fl) (p : Z) (i0 : Z) (i : Z) (st : F * F * fl) : res (F * F * fl) :=
  let '(t1, t2, r) := st in
  tempReal <- get xs i ;;
  let t1 := t1 +~ tempReal in
  let t2 := t2 +~ tempReal *~ tempReal in
  let mean1 := t1 /~ ofZ p in
  let mean2 := t2 /~ ofZ p in
  old <- get xs (i - i0) ;;                         (* trailingIdx *)
  let t1 := t1 -~ old in
  let t2 := t2 -~ old *~ old in
  r <- set r (p - 1 + (i - i0)) (mean2 -~ mean1 *~ mean1) ;;   (* outIdx *)
  Ok (t1, t2, r).
Definition Variance (xs : fl) (p : Z) : res fl :=
  outReal <- make fzero (len xs) ;;
  let i0 := if p >? 1 then p - 1 else 0 in
  '(t1, t2) <- for_ 0 i0 (fun i '(t1, t2) =>
     v <- get xs i ;; Ok (t1 +~ v, t2 +~ v *~ v)) (fzero, fzero) ;;
  st <- var_body xs p i0 i0 (t1, t2, outReal) ;;
  '(_, _, r) <- for_ (i0 + 1) (len xs) (var_body xs p i0) st ;;
  Ok r.

(** 1070-1093; the literal 0.00000000000001 *)
Definition sd_eps : F := lit 1 100000000000000.
Definition StdDev (xs : fl) (p : Z) (inNbDev : F) : res fl :=
  outReal <- Variance xs p ;;
  if negb (inNbDev ==~ ofZ 1) then
    for_ 0 (len xs) (fun i r =>
      t <- get r i ;;
      if negb (t <~ sd_eps) then set r i (fsqrt t *~ inNbDev) else set r i (ofZ 0)) outReal
  else
    for_ 0 (len xs) (fun i r =>
      t <- get r i ;;
      if negb (t <~ sd_eps) then set r i (fsqrt t) else set r i (ofZ 0)) outReal.

(** 1104-1111 *)
Definition Nz (val replacement : F) : F := if isNaN val then replacement else val.
(** 1096-1101: overwrites its argument in place and returns it *)
Definition Nzs (vals : fl) (replacement : F) : res fl :=
  for_ 0 (len vals) (fun i r => v <- get r i ;; set r i (Nz v replacement)) vals.

(** 1120-1122 and 1131-1133: && does not evaluate its right side when the left is
    false, so a one-element slice panics only if the first test succeeds. *)
Definition CrossOver (values : fl) (source : F) : res bool :=
  a <- get values (len values - 1) ;;
  if source <~ a then b <- get values (len values - 2) ;; Ok (b <~ source) else Ok false.
Definition CrossUnder (values : fl) (source : F) : res bool :=
  a <- get values (len values - 1) ;;
  if a <~ source then b <- get values (len values - 2) ;; Ok (source <~ b) else Ok false.

(** 313-321 *)
Definition Dema (period : Z) (values : fl) : res fl :=
  ema1 <- Ema period values ;;
  ema2 <- Ema period ema1 ;;
  d <- MultiplyBy ema1 (ofZ 2) ;;
  Subtract d ema2.

(** 192-199 *)
Definition Stochastic (closing highs lows : fl) (period : Z) : res (fl * fl) :=
  highestHigh <- Max period highs ;;
  lowestLow <- Min period lows ;;
  num <- Subtract closing lowestLow ;;
  den <- Subtract highestHigh lowestLow ;;
  q <- Divide num den ;;
  k <- MultiplyBy q (ofZ 100) ;;
  d <- Sma 3 k ;;
  Ok (k, d).
End Ta.
