(** * Smc: model of trend/SmartMoneyConcepts.go and SmartMoneyConcepts_type.go.

    Line numbers without a file name are those of trend/SmartMoneyConcepts.go.

    Simplifications.  The Name string is not modelled.  The bytes of a
    time.Time are its instant (file Klines).  When a call panics the object's
    half-written fields are not modelled.  Slices handed out by Add and Remove
    are fresh (they allocate), so lists without aliasing describe them. *)
From Verif Require Import Base Num Ta Klines IndBase.
Set Implicit Arguments.

Section Smc.
Context {N : Num}.
Local Notation fl := (list F).

(** ** SmartMoneyConcepts_type.go *)

(** 11-18 *)
Record Block : Type := mkBlock {
  bkTop : bool; bkTime : Z; bkClose : F; bkHigh : F; bkLow : F; bkOpen : F }.

(** 20-23: Equal compares the side and the instant only *)
Definition bkEqual (e k : Block) : bool :=
  Bool.eqb (bkTop e) (bkTop k) && (bkTime e =? bkTime k).

(** 27-34 *)
Fixpoint bkContains (e : list Block) (k : Block) : bool :=
  match e with
  | [] => false
  | x :: e' => if bkEqual x k then true else bkContains e' k
  end.

(** 36-42 *)
Definition bkAdd (e : list Block) (k : Block) : list Block :=
  if negb (bkContains e k) then k :: e else e.

(** 44-55: the first equal entry is cut out of a copy; without one the result is nil *)
Fixpoint bkFind (e : list Block) (k : Block) : option nat :=
  match e with
  | [] => None
  | x :: e' => if bkEqual x k then Some O else option_map S (bkFind e' k)
  end.
Definition bkRemove (e : list Block) (k : Block) : list Block :=
  match bkFind e k with
  | Some x => firstn x e ++ skipn (S x) e
  | None => []
  end.

(** ** The data rows: 55-77 *)
Record SmcVal : Type := mkSmcVal {
  HighBOSShort : F; HighCHoCHShort : F; HighBOSLong : F; HighCHoCHLong : F;
  LowBOSShort : F; LowChoCHShort : F; LowBOSLong : F; LowChoCHLong : F;
  EQH : F; EQL : F }.
Definition smc_zero : SmcVal :=
  mkSmcVal fzero fzero fzero fzero fzero fzero fzero fzero fzero fzero.

Inductive field : Type :=
  fHighBOSShort | fHighCHoCHShort | fHighBOSLong | fHighCHoCHLong
| fLowBOSShort | fLowChoCHShort | fLowBOSLong | fLowChoCHLong | fEQH | fEQL.

(** the assignment [r.f = y] *)
Definition put (f : field) (y : F) (r : SmcVal) : SmcVal :=
  let '(mkSmcVal a b c d e g h i j k) := r in
  match f with
  | fHighBOSShort => mkSmcVal y b c d e g h i j k
  | fHighCHoCHShort => mkSmcVal a y c d e g h i j k
  | fHighBOSLong => mkSmcVal a b y d e g h i j k
  | fHighCHoCHLong => mkSmcVal a b c y e g h i j k
  | fLowBOSShort => mkSmcVal a b c d y g h i j k
  | fLowChoCHShort => mkSmcVal a b c d e y h i j k
  | fLowBOSLong => mkSmcVal a b c d e g y i j k
  | fLowChoCHLong => mkSmcVal a b c d e g h y j k
  | fEQH => mkSmcVal a b c d e g h i y k
  | fEQL => mkSmcVal a b c d e g h i j y
  end.

(** [for candleIndex := from; candleIndex <= to; candleIndex++ { e.data[candleIndex].f = y }]
    (249-251 and its copies) *)
Definition draw (f : field) (y : F) (from to : Z) (data : list (row SmcVal)) : res (list (row SmcVal)) :=
  for_ from (to + 1) (fun j data =>
    r <- get data j ;; set data j (mkRow (rTime r) (put f y (rVal r)))) data.

(** ** swings: 504-547; [osPrev] is os1Prev or os2Prev, the new one is returned *)
Definition swings (highs lows : fl) (lenght osPrev : Z) : res (F * F * Z) :=
  upper <- Highest highs lenght ;;
  lower <- Lowest lows lenght ;;
  h <- get highs (len highs - 1) ;;
  h <- (if len highs - lenght - 1 >=? 0 then get highs (len highs - lenght - 1) else Ok h) ;;
  l <- get lows (len lows - 1) ;;
  l <- (if len lows - lenght - 1 >=? 0 then get lows (len lows - lenght - 1) else Ok l) ;;
  let os := if h >~ upper then 0 else if l <~ lower then 1 else osPrev in
  let top := if (os =? 0) && negb (osPrev =? 0) then h else fzero in
  let btm := if (os =? 1) && negb (osPrev =? 1) then l else fzero in
  Ok (top, btm, os).

(** ** obCoord: 440-501.  [idxPrev] is idxPrevBullish (obType 1) or idxPrevBearish
    (obType 2); the new one is returned.  The literal 99999999.0 is an integer. *)
Definition ob_step (useMax : bool) (index : Z) (highs lows atr : fl) (k : Z) (st : F * F * Z * Z) : res (F * F * Z * Z) :=
  let '(min, max, idx, idxPrev) := st in
  let i := index - k in
  h <- get highs i ;;
  l <- get lows i ;;
  a <- get atr i ;;
  if (h -~ l) <~ (a *~ ofZ 2) then
    if useMax then
      let max := fmax h max in
      let min := if max ==~ h then l else min in
      let idx := if max ==~ h then i else idxPrev in
      Ok (min, max, idx, idx)
    else
      let min := fmin l min in
      let max := if min ==~ l then h else max in
      let idx := if min ==~ l then i else idxPrev in
      Ok (min, max, idx, idx)
  else Ok (min, max, idx, idxPrev).
Definition ob_scan (useMax : bool) (index loc : Z) (highs lows atr : fl) (idxPrev : Z) : res (Z * Z) :=
  '(_, _, idx, idxPrev) <- for_ 0 (index - loc + 1) (ob_step useMax index highs lows atr)
     (ofZ 99999999, ofZ 0, 1, idxPrev) ;;
  Ok (idx, idxPrev).
Definition obCoord (oh : OHLC) (useMax : bool) (index loc : Z) (highs lows atr : fl) (idxPrev : Z)
    (lst : list Block) : res (Z * list Block) :=
  '(idx, idxPrev) <- ob_scan useMax index loc highs lows atr idxPrev ;;
  t <- time_in (oTime oh) idx ;;
  o <- get (oOpen oh) idx ;;
  c <- get (oClose oh) idx ;;
  h <- get highs idx ;;
  l <- get lows idx ;;
  Ok (idxPrev, bkAdd lst (mkBlock useMax t c h l o)).

(** ** Parameters (11-29) and the object (31-53) *)
Record SmcP : Type := mkSmcP {
  SwingLenght : Z; BarsConfirmation : Z; Threshold : Z; EqEnable : bool; OrderBlockNumber : Z }.
Record Smc : Type := mkSmc {
  sData : list (row SmcVal);
  sBullish : list Block; sBearish : list Block;
  sOs1 : Z; sOs2 : Z; sIdxBullish : Z; sIdxBearish : Z;
  sStrongHigh : row F; sWeakHigh : row F; sStrongLow : row F; sWeakLow : row F }.
Definition sw_zero : row F := mkRow zero_time fzero.
(** 80-112: a new object (OrderBlockNumber 5, EQHEQL_Enable false; both fields are public) *)
Definition smc_new : Smc := mkSmc [] [] [] 0 0 0 0 sw_zero sw_zero sw_zero sw_zero.
Definition smc_params (swing bars thr : Z) : SmcP := mkSmcP swing bars thr false 5.
(** 119-123 *)
Definition smc_Clear (e : Smc) : Smc :=
  mkSmc [] [] [] (sOs1 e) (sOs2 e) (sIdxBullish e) (sIdxBearish e)
    (sStrongHigh e) (sWeakHigh e) (sStrongLow e) (sWeakLow e).

(** ** The local variables of Calculation (138-165).  A pivot is the triple
    (top_y, top_x, top_cross) and its three siblings. *)
Record Pivot : Type := mkPivot { pvY : F; pvX : Z; pvCross : bool }.
Record Loc : Type := mkLoc {
  lTrend : Z; lITrend : Z;
  lTop : Pivot; lBtm : Pivot; lITop : Pivot; lIBtm : Pivot;
  lUp : F; lUpX : Z; lDn : F; lDnX : Z;
  lEqTop : F; lEqTopX : Z; lEqBtm : F; lEqBtmX : Z }.
Definition pivot0 : Pivot := mkPivot fzero 0 true.
Definition loc0 : Loc :=
  mkLoc 0 0 pivot0 pivot0 pivot0 pivot0 fzero 0 fzero 0 fzero 0 fzero 0.

(** 195-200, 205-209, 216-221, 226-231: a new swing point re-arms its pivot *)
Definition arm (y : F) (x : Z) (p : Pivot) : Pivot :=
  if negb (y ==~ fzero) then mkPivot y x true else p.
(** 201-202 with 211-214, and 222-223 with 233-236 (pick = math.Max, math.Min) *)
Definition trail (pick : F -> F -> F) (y : F) (x : Z) (v : F) (i : Z) (t : F * Z) : F * Z :=
  let t := if negb (y ==~ fzero) then (y, x) else t in
  let u := pick v (fst t) in
  (u, if u ==~ v then i else snd t).

(** One BOS/CHoCH block (241-263, 265-285, 290-311, 313-334): when it [fires] the
    level is drawn from the pivot to the current candle, the pivot is disarmed and
    an order block is added.  Result: data, pivot, idxPrev, order blocks. *)
Definition brk (oh : OHLC) (fires choch useMax : bool) (fBos fChoch : field) (i : Z)
    (highs lows atr : fl) (p : Pivot) (st : list (row SmcVal) * Z * list Block)
  : res (Pivot * (list (row SmcVal) * Z * list Block)) :=
  if fires then
    let '(data, idxPrev, lst) := st in
    data <- draw (if choch then fChoch else fBos) (pvY p) (pvX p) i data ;;
    '(idxPrev, lst) <- obCoord oh useMax i (pvX p) highs lows atr idxPrev lst ;;
    Ok (mkPivot (pvY p) (pvX p) false, (data, idxPrev, lst))
  else Ok (p, st).

(** 339-353 and 355-369: collect the blocks to remove, then remove them one by one *)
Definition ob_doomed (close : F) (v : Block) : bool :=
  ((close <~ bkClose v) && negb (bkTop v)) || ((close >~ bkHigh v) && bkTop v).
Definition ob_removelist (close : F) (number : Z) (lst : list Block) : res (list Block) :=
  range_ lst (fun j v rm =>
    let rm := if ob_doomed close v then rm ++ [v] else rm in
    Ok (if (j >? number) && negb (bkContains rm v) then rm ++ [v] else rm)) [].
Definition ob_clean (close : F) (number : Z) (lst : list Block) : res (list Block) :=
  rm <- ob_removelist close number lst ;;
  range_ rm (fun _ v lst => Ok (bkRemove lst v)) lst.

(** 380-391 and 393-404: equal highs, equal lows.  [close_to max min band] is
    the test [max < min + band] resp. [min > max - band]. *)
Definition eq_step (close_to : F -> F -> F -> bool) (f : field) (y : F) (i : Z) (a : F) (p : SmcP)
    (st : F * Z * list (row SmcVal)) : res (F * Z * list (row SmcVal)) :=
  let '(prev, x, data) := st in
  if negb (y ==~ fzero) then
    let max := fmax y prev in
    let min := fmin y prev in
    data <- (if close_to max min (a *~ ofZ (Threshold p) /~ ofZ 10)
             then draw f prev x (i - BarsConfirmation p) data else Ok data) ;;
    Ok (y, i - BarsConfirmation p, data)
  else Ok st.

(** ** Calculation: one bar with i >= SwingLenght (192-434) *)
Definition smc_bar (p : SmcP) (oh : OHLC) (atr : fl) (i : Z) (v : Loc) (e : Smc) : res (Loc * Smc) :=
  close <- get (oClose oh) i ;;
  high <- get (oHigh oh) i ;;
  low <- get (oLow oh) i ;;
  timeUnix <- get (oTime oh) i ;;
  hs <- slice (oHigh oh) 0 (i + 1) ;;
  ls <- slice (oLow oh) 0 (i + 1) ;;
  '(top, btm, os1) <- swings hs ls (SwingLenght p) (sOs1 e) ;;
  '(itop, ibtm, os2) <- swings hs ls 5 (sOs2 e) ;;
  let pTop := arm top (i - SwingLenght p) (lTop v) in
  let pITop := arm itop (i - 5) (lITop v) in
  let '(up, upX) := trail fmax top (i - SwingLenght p) high i (lUp v, lUpX v) in
  let pBtm := arm btm (i - SwingLenght p) (lBtm v) in
  let pIBtm := arm ibtm (i - 5) (lIBtm v) in
  let '(dn, dnX) := trail fmin btm (i - SwingLenght p) low i (lDn v, lDnX v) in
  cls <- slice (oClose oh) 0 (i + 1) ;;
  at_ <- slice atr 0 (i + 1) ;;
  (* pivot high, short *)
  x1 <- CrossOver cls (pvY pITop) ;;
  let f1 := x1 && pvCross pITop && negb (pvY pTop ==~ pvY pITop) in
  '(pITop, (data, idxB, bull)) <- brk oh f1 (lITrend v <? 0) false fHighBOSShort fHighCHoCHShort i hs ls at_
      pITop (sData e, sIdxBullish e, sBullish e) ;;
  let itrend := if f1 then 1 else lITrend v in
  (* pivot high, long *)
  x2 <- CrossOver cls (pvY pTop) ;;
  let f2 := x2 && pvCross pTop in
  '(pTop, (data, idxS, bear)) <- brk oh f2 (lTrend v <? 0) false fHighBOSLong fHighCHoCHLong i hs ls at_
      pTop (data, sIdxBearish e, sBearish e) ;;
  let trend := if f2 then 1 else lTrend v in
  (* pivot low, short *)
  x3 <- CrossUnder cls (pvY pIBtm) ;;
  let f3 := x3 && pvCross pIBtm && negb (pvY pBtm ==~ pvY pIBtm) in
  '(pIBtm, (data, idxB, bull)) <- brk oh f3 (itrend >? 0) true fLowBOSShort fLowChoCHShort i hs ls at_
      pIBtm (data, idxB, bull) ;;
  let itrend := if f3 then -1 else itrend in
  (* pivot low, long: the CHoCH test reads itrend *)
  x4 <- CrossUnder cls (pvY pBtm) ;;
  let f4 := x4 && pvCross pBtm in
  '(pBtm, (data, idxS, bear)) <- brk oh f4 (itrend >? 0) true fLowBOSLong fLowChoCHLong i hs ls at_
      pBtm (data, idxS, bear) ;;
  let trend := if f4 then -1 else trend in
  (* order blocks *)
  bull <- ob_clean close (OrderBlockNumber p) bull ;;
  bear <- ob_clean close (OrderBlockNumber p) bear ;;
  (* EQH/EQL *)
  '(eqT, eqTX, eqB, eqBX, data) <-
    (if EqEnable p then
       tops <- PivotHigh hs (BarsConfirmation p) (BarsConfirmation p) ;;
       eq_top <- get tops (len tops - 1) ;;
       btms <- PivotLow ls (BarsConfirmation p) (BarsConfirmation p) ;;
       eq_btm <- get btms (len btms - 1) ;;
       a <- get atr i ;;
       '(eqT, eqTX, data) <- eq_step (fun max min band => max <~ (min +~ band)) fEQH eq_top i a p
           (lEqTop v, lEqTopX v, data) ;;
       '(eqB, eqBX, data) <- eq_step (fun max min band => min >~ (max -~ band)) fEQL eq_btm i a p
           (lEqBtm v, lEqBtmX v, data) ;;
       Ok (eqT, eqTX, eqB, eqBX, data)
     else Ok (lEqTop v, lEqTopX v, lEqBtm v, lEqBtmX v, data)) ;;
  (* strong/weak high/low *)
  tUp <- time_in (oTime oh) upX ;;
  tDn <- time_in (oTime oh) dnX ;;
  let sH := if trend <? 0 then mkRow tUp up else sStrongHigh e in
  let wH := if trend <? 0 then sWeakHigh e else mkRow tUp up in
  let sL := if trend >? 0 then mkRow tDn dn else sStrongLow e in
  let wL := if trend >? 0 then sWeakLow e else mkRow tDn dn in
  r <- get data i ;;
  data <- set data i (mkRow (unix timeUnix) (rVal r)) ;;
  Ok (mkLoc trend itrend pTop pBtm pITop pIBtm up upX dn dnX eqT eqTX eqB eqBX,
      mkSmc data bull bear os1 os2 idxB idxS sH wH sL wL).

(** Calculation: 126-438.  Lines 175-190 run for every bar from 1 on. *)
Definition smc_step (p : SmcP) (oh : OHLC) (atr : fl) (i : Z) (st : Loc * Smc) : res (Loc * Smc) :=
  let '(v, e) := st in
  _ <- get (oClose oh) i ;;
  high <- get (oHigh oh) i ;;
  low <- get (oLow oh) i ;;
  _ <- get (oTime oh) i ;;
  let up := if lUp v ==~ fzero then high else lUp v in
  let dn := if lDn v ==~ fzero then low else lDn v in
  let v := mkLoc (lTrend v) (lITrend v) (lTop v) (lBtm v) (lITop v) (lIBtm v)
             up (lUpX v) dn (lDnX v) (lEqTop v) (lEqTopX v) (lEqBtm v) (lEqBtmX v) in
  if i <? SwingLenght p then Ok (v, e) else smc_bar p oh atr i v e.
Definition smc_Calculation (p : SmcP) (oh : OHLC) (e : Smc) : res Smc :=
  atr <- Atr (oHigh oh) (oLow oh) (oClose oh) 200 ;;
  data <- make (mkRow zero_time smc_zero) (len (oClose oh)) ;;
  let e := mkSmc data (sBullish e) (sBearish e) (sOs1 e) (sOs2 e) (sIdxBullish e) (sIdxBearish e)
             (sStrongHigh e) (sWeakHigh e) (sStrongLow e) (sWeakLow e) in
  '(_, e) <- for_ 1 (len (oClose oh)) (smc_step p oh atr) (loc0, e) ;;
  Ok e.

(** GetData: 550-555 *)
Definition smc_GetData (p : SmcP) (oh : OHLC) (e : Smc) : res (Smc * list (row SmcVal)) :=
  e <- (if len (sData e) =? 0 then smc_Calculation p oh e else Ok e) ;;
  Ok (e, sData e).
End Smc.
