(** * Klines: model of utils/klines and of commonutils.StartEndTimeCheck. *)
From Coq Require Import String Permutation.
From Verif Require Import Base Num.
Set Implicit Arguments.

(** ** Time

    A time.Time is an instant: a [Z] counting nanoseconds from the Unix epoch.
    Location and monotonic clock readings are not modelled.  A time.Duration is a
    [Z] in nanoseconds. *)
Definition second : Z := 1000000000.
(** time.Time{}: January 1, year 1, 00:00:00 UTC *)
Definition zero_time : Z := -62135596800 * second.
(** time.Unix(sec, 0) *)
Definition unix (sec : Z) : Z := sec * second.
(** t.Unix(): whole seconds, rounded down *)
Definition toUnix (t : Z) : Z := t / second.
(** a.Sub(b): saturates at the limits of int64 *)
Definition max_dur : Z := 9223372036854775807.
Definition min_dur : Z := -9223372036854775808.
Definition tsub (a b : Z) : Z := Z.max min_dur (Z.min max_dur (a - b)).
(** t.Round(d): nearest multiple of d counted from the zero time, halves up *)
Definition tround (t d : Z) : Z :=
  if d <=? 0 then t else
  let r := (t - zero_time) mod d in
  if r + r <? d then t - r else t + (d - r).

(** ** Errors (kline_type.go:46-58, commonutils/common.go:16-26) *)
Inductive kerr : Type :=
  | ErrNilKline | ErrInvalidInterval | ErrCanOnlyUpscale | ErrWholeNumberScaling
  | ErrNotPadded | ErrInsufficientData | ErrTimeWindow | ErrNotAligned
  | ErrDateUnset | ErrStartAfterEnd | ErrStartEqualsEnd | ErrStartAfterNow.

(** commonutils/common.go:86-104; [now] is time.Now() *)
Definition StartEndTimeCheck (now start end_ : Z) : option kerr :=
  if (start =? zero_time) || (start =? unix 0) then Some ErrDateUnset
  else if (end_ =? zero_time) || (end_ =? unix 0) then Some ErrDateUnset
  else if start >? end_ then Some ErrStartAfterEnd
  else if start =? end_ then Some ErrStartEqualsEnd
  else if start >? now then Some ErrStartAfterNow
  else None.

(** kline_type.go:95-123 *)
Record IntervalTime := mkIT { itTime : Z; itTicks : Z }.
Record IntervalData := mkID { idStart : IntervalTime; idEnd : IntervalTime; idHasData : bool }.
Record IntervalRange := mkIR { irStart : IntervalTime; irEnd : IntervalTime; irIntervals : list IntervalData }.
Record IntervalRangeHolder := mkIRH {
  hStart : IntervalTime; hEnd : IntervalTime; hRanges : list IntervalRange; hLimit : Z }.

(** kline.go:353-355 *)
Definition CreateIntervalTime (tt : Z) : IntervalTime := mkIT tt (toUnix tt).
(** kline.go:358-360 *)
Definition IntervalTime_Equal (i : IntervalTime) (tt : Z) : bool := toUnix tt =? itTicks i.

Definition zeroIT : IntervalTime := mkIT zero_time 0.
Definition zeroID : IntervalData := mkID zeroIT zeroIT false.
Definition zeroIR : IntervalRange := mkIR zeroIT zeroIT [].

(** kline.go:269-275 *)
Definition TotalCandlesPerInterval (start end_ interval : Z) : Z :=
  if interval <=? 0 then 0 else Z.quot (tsub end_ start) interval.

(** kline.go:332-350 *)
Definition inTicks (tu : Z) (s e : IntervalTime) : bool := (itTicks s <=? tu) && (tu <? itTicks e).
Definition HasDataAtDate (h : IntervalRangeHolder) (t : Z) : bool :=
  let tu := toUnix t in
  if (tu <? itTicks (hStart h)) || (tu >? itTicks (hEnd h)) then false else
  (fix scan (rs : list IntervalRange) : bool :=
     match rs with
     | [] => false
     | r :: rs' =>
         if negb (inTicks tu (irStart r) (irEnd r)) then scan rs' else
         match find (fun d => inTicks tu (idStart d) (idEnd d)) (irIntervals r) with
         | Some d => idHasData d
         | None => scan rs'
         end
     end) (hRanges h).

Section Klines.
Context {N : Num}.

(** ** Candles (kline_type.go:61-87) *)
Record Candle := mkCandle {
  cAmount : F; cCount : Z; cOpen : F; cClose : F; cLow : F; cHigh : F; cVolume : F;
  cChange : F; cBull : bool; cTime : Z }.
Record Item := mkItem {
  iExchange : string; iInterval : Z; iSymbol : string; iCode : string;
  iCandles : list Candle }.
(** &Candle{TimeUnix: t} *)
Definition blank (t : Z) : Candle :=
  mkCandle fzero 0 fzero fzero fzero fzero fzero fzero false t.
Definition setOpen v c := mkCandle (cAmount c) (cCount c) v (cClose c) (cLow c) (cHigh c) (cVolume c) (cChange c) (cBull c) (cTime c).
Definition setClose v c := mkCandle (cAmount c) (cCount c) (cOpen c) v (cLow c) (cHigh c) (cVolume c) (cChange c) (cBull c) (cTime c).
Definition setLow v c := mkCandle (cAmount c) (cCount c) (cOpen c) (cClose c) v (cHigh c) (cVolume c) (cChange c) (cBull c) (cTime c).
Definition setHigh v c := mkCandle (cAmount c) (cCount c) (cOpen c) (cClose c) (cLow c) v (cVolume c) (cChange c) (cBull c) (cTime c).
Definition setVolume v c := mkCandle (cAmount c) (cCount c) (cOpen c) (cClose c) (cLow c) (cHigh c) v (cChange c) (cBull c) (cTime c).
Definition setChange v c := mkCandle (cAmount c) (cCount c) (cOpen c) (cClose c) (cLow c) (cHigh c) (cVolume c) v (cBull c) (cTime c).
Definition setBull v c := mkCandle (cAmount c) (cCount c) (cOpen c) (cClose c) (cLow c) (cHigh c) (cVolume c) (cChange c) v (cTime c).

(** [int64(d.Seconds())]: Duration.Seconds is float64(d/Second) +
    float64(d%Second)/1e9 *)
Definition dur_secs (d : Z) : Z :=
  ftrunc (ofZ (Z.quot d second) +~ ofZ (Z.rem d second) /~ ofZ second).

(** ** CalculateCandleDateRanges (kline.go:280-328) *)

(** Lines 292-301: the number of requests, computed in float64, and the limit.
    [int64(requests)] and [int(requests)] are truncations; [uint32(count)] wraps. *)
Definition request_plan (count limit : Z) : Z * Z :=
  let requests := ofZ count /~ ofZ limit in
  if requests <=~ ofZ 1 then (ftrunc (ofZ 1), limit)
  else if limit =? 0 then (ftrunc (ofZ 1), count mod 2 ^ 32)
  else if (requests -~ ofZ (ftrunc requests)) >~ ofZ 0 then (ftrunc (requests +~ ofZ 1), limit)
  else (ftrunc requests, limit).

(** Lines 315-319 *)
Definition fill_intervals (interval k requestStart : Z) : res (Z * list IntervalData) :=
  ivs <- make zeroID k ;;
  for_ 0 (len ivs) (fun y '(rs, ivs) =>
    let s := CreateIntervalTime rs in
    let rs := rs + interval in
    ivs <- set ivs y (mkID s (CreateIntervalTime rs) false) ;;
    Ok (rs, ivs)) (requestStart, ivs).

Definition CalculateCandleDateRanges (now start end_ interval limit : Z)
  : res (kerr + IntervalRangeHolder) :=
  let go :=
    if interval <=? 0 then Ok (inl ErrInvalidInterval) else
    let start := tround start interval in
    let end_ := tround end_ interval in
    let window := tsub end_ start in
    let count := Z.quot window interval in
    let '(nreq, limit) := request_plan count limit in
    reqs <- make zeroIR nreq ;;
    '(_, requestStart, reqs) <- for_ 0 (len reqs) (fun x '(count, requestStart, reqs) =>
      let rstart := CreateIntervalTime requestStart in
      let count := count - limit in
      '(requestStart, ivs) <-
        fill_intervals interval (if count <? 0 then count + limit else limit) requestStart ;;
      reqs <- set reqs x (mkIR rstart (CreateIntervalTime requestStart) ivs) ;;
      Ok (count, requestStart, reqs)) (count, start, reqs) ;;
    Ok (inr (mkIRH (CreateIntervalTime start) (CreateIntervalTime requestStart) reqs limit)) in
  match StartEndTimeCheck now start end_ with
  | None | Some ErrStartAfterNow => go
  | Some e => Ok (inl e)
  end.

(** ** ConvertToNewInterval (kline.go:25-142)

    The result slice holds pointers, nil until assigned: [list (option Candle)].
    A nil receiver is [None]. *)
Definition deref (o : option Candle) : res Candle :=
  match o with Some c => Ok c | None => Panic end.

(** Lines 87-97: time stamps of the new candles; [break] leaves the inner loop only. *)
Definition assign_times (h : IntervalRangeHolder) (candles : list (option Candle))
  : res (list (option Candle)) :=
  '(_, candles) <- range_ (hRanges h) (fun _ r '(target, candles) =>
    range_ (irIntervals r) (fun _ d '(target, candles) =>
      if target >=? len candles then Ok (target, candles) else
      candles <- set candles target (Some (blank (toUnix (itTime (idStart d))))) ;;
      Ok (target + 1, candles)) (target, candles)) (0, candles) ;;
  Ok candles.

(** Lines 102-123: the updates of candles[target] from the old candle [old].  Each
    test is evaluated on the candle as updated so far. *)
Definition absorb (oldSecs newSecs : Z) (old cur : Candle) : Candle :=
  let eq := cTime old =? cTime cur in
  let gt := cTime old >? cTime cur in
  let cur := if eq && (cOpen cur ==~ ofZ 0) then setOpen (cOpen old) cur else cur in
  let cur := if eq || gt && (cHigh old >~ cHigh cur) then setHigh (cHigh old) cur else cur in
  let cur := if eq || gt && ((cLow cur ==~ ofZ 0) || (cLow old <~ cLow cur))
             then setLow (cLow old) cur else cur in
  let cur := if eq || gt && (cTime old <? cTime cur + newSecs)
             then setVolume (cVolume cur +~ cVolume old) cur else cur in
  if cTime old + oldSecs =? cTime cur + newSecs then
    let cur := setClose (cClose old) cur in
    let cur := setChange ((cClose cur -~ cOpen cur) /~ cOpen cur) cur in
    if cClose cur >~ cOpen cur then setBull true cur else cur
  else cur.

(** Lines 125-135: does the loop [break] (None) or go on, with which target? *)
Definition advance (olds : list Candle) (candles : list (option Candle)) (k x target : Z)
  : res (option Z) :=
  if (x <? len olds - 1) && (target <? len candles - 1) then
    nxt <- get olds (x + 1) ;;
    p <- get candles (target + 1) ;; c <- deref p ;;
    if cTime nxt =? cTime c then
      if len olds - x - 1 <? k then Ok None else Ok (Some (target + 1))
    else Ok (Some target)
  else Ok (Some target).

(** Lines 99-136; the state carries [None] for the target once the loop has broken. *)
Definition merge_loop (olds : list Candle) (candles : list (option Candle)) (k oldSecs newSecs : Z)
  : res (list (option Candle)) :=
  '(_, candles) <- for_ 0 (len olds) (fun x '(tg, candles) =>
    match tg with
    | None => Ok (None, candles)
    | Some target =>
        old <- get olds x ;;
        p <- get candles target ;; cur <- deref p ;;
        candles <- set candles target (Some (absorb oldSecs newSecs old cur)) ;;
        tg <- advance olds candles k x target ;;
        Ok (tg, candles)
    end) (Some 0, candles) ;;
  Ok candles.

(** The new item, whose candles are still possibly nil pointers. *)
Record PItem := mkPItem {
  pExchange : string; pInterval : Z; pSymbol : string; pCode : string;
  pCandles : list (option Candle) }.

Definition ConvertToNewInterval (now : Z) (e : option Item) (newInterval : Z)
  : res (kerr + PItem) :=
  match e with
  | None => Ok (inl ErrNilKline)
  | Some e =>
    if iInterval e <=? 0 then Ok (inl ErrInvalidInterval) else
    if newInterval <=? 0 then Ok (inl ErrInvalidInterval) else
    if newInterval <=? iInterval e then Ok (inl ErrCanOnlyUpscale) else
    if negb (Z.rem newInterval (iInterval e) =? 0) then Ok (inl ErrWholeNumberScaling) else
    first <- get (iCandles e) 0 ;;
    last <- get (iCandles e) (len (iCandles e) - 1) ;;
    let start := unix (cTime first) in
    let end_ := unix (cTime last) + iInterval e in
    let window := tsub end_ start in
    if negb (Z.quot window (iInterval e) =? len (iCandles e)) then Ok (inl ErrNotPadded) else
    let k := Z.quot newInterval (iInterval e) in
    candles <- make None (Z.quot (len (iCandles e)) k) ;;
    if len candles =? 0 then Ok (inl ErrInsufficientData) else
    holder <- CalculateCandleDateRanges now start end_ newInterval 100000 ;;
    match holder with
    | inl _ => Panic                                       (* panic(err), line 81 *)
    | inr h =>
        candles <- assign_times h candles ;;
        candles <- merge_loop (iCandles e) candles k (dur_secs (iInterval e)) (dur_secs newInterval) ;;
        Ok (inr (mkPItem (iExchange e) newInterval EmptyString EmptyString candles))
    end
  end.

(** ** addPadding (kline.go:207-261)

    Returns the error, if any, and the receiver afterwards.  The padded slice
    starts with blank candles instead of nil pointers: the loop writes index x in
    iteration x before anything reads it. *)
Definition addPadding (e : option Item) (start exclusiveEnd : Z) (purgeOnPartial : bool)
  : res (option kerr * option Item) :=
  match e with
  | None => Ok (Some ErrNilKline, None)
  | Some e =>
    if iInterval e <=? 0 then Ok (Some ErrInvalidInterval, Some e) else
    let window := tsub exclusiveEnd start in
    if window <=? 0 then Ok (Some ErrTimeWindow, Some e) else
    padded <- make (blank 0) (Z.quot window (iInterval e)) ;;
    '(err, _, _, padded) <- for_ 0 (len padded) (fun x '(err, start, target, padded) =>
      match err with
      | Some _ => Ok (err, start, target, padded)        (* already returned *)
      | None =>
          if target >=? len (iCandles e) then
            padded <- set padded x (blank (toUnix start)) ;;
            Ok (None, start + iInterval e, target, padded)
          else
            c <- get (iCandles e) target ;;
            if negb (cTime c =? toUnix start) then
              if cTime c <? toUnix start then Ok (Some ErrNotAligned, start, target, padded) else
              padded <- set padded x (blank (toUnix start)) ;;
              Ok (None, start + iInterval e, target, padded)
            else
              padded <- set padded x c ;;
              Ok (None, start + iInterval e, target + 1, padded)
      end) (None, start, 0, padded) ;;
    match err with
    | Some er => Ok (Some er, Some e)
    | None =>
        padded <-
          (if purgeOnPartial then
             l <- get padded (len padded - 1) ;;
             if (cVolume l ==~ ofZ 0) && (cOpen l ==~ ofZ 0) && (cHigh l ==~ ofZ 0)
                && (cLow l ==~ ofZ 0) && (cClose l ==~ ofZ 0)
             then slice padded 0 (len padded - 1) else Ok padded
           else Ok padded) ;;
        Ok (None, Some (mkItem (iExchange e) (iInterval e) (iSymbol e) (iCode e) padded))
    end
  end.

(** ** SortCandlesByTimestamp (kline.go:193-199)

    sort.Slice may use any algorithm: all that its contract says is that the slice
    ends up a permutation of itself, ordered by [less].  [SortSlice less l l']: the
    call may turn [l] into [l']. *)
Inductive sorted_by {A} (less : A -> A -> bool) : list A -> Prop :=
  | sorted_nil : sorted_by less []
  | sorted_cons a l : (forall b, In b l -> less b a = false) -> sorted_by less l ->
      sorted_by less (a :: l).
Definition SortSlice {A} (less : A -> A -> bool) (l l' : list A) : Prop :=
  Permutation l l' /\ sorted_by less l'.
Definition SortCandlesByTimestamp (desc : bool) (l l' : list Candle) : Prop :=
  if desc then SortSlice (fun a b => cTime a <? cTime b) l l'
  else SortSlice (fun a b => cTime a >? cTime b) l l'.

(** ** technical_analysis.go *)
(** 8-40 *)
Record OHLC := mkOHLC {
  oOpen : list F; oHigh : list F; oLow : list F; oClose : list F; oVolume : list F;
  oBull : list bool; oTime : list Z }.
Definition GetOHLC (cs : list Candle) : res OHLC :=
  o <- make fzero (len cs) ;; h <- make fzero (len cs) ;; l <- make fzero (len cs) ;;
  c <- make fzero (len cs) ;; v <- make fzero (len cs) ;; b <- make false (len cs) ;;
  t <- make 0 (len cs) ;;
  for_ 0 (len cs) (fun x s =>
    k <- get cs x ;;
    o <- set (oOpen s) x (cOpen k) ;;
    h <- set (oHigh s) x (cHigh k) ;;
    l <- set (oLow s) x (cLow k) ;;
    c <- set (oClose s) x (cClose k) ;;
    v <- set (oVolume s) x (cVolume k) ;;
    b <- set (oBull s) x (cBull k) ;;
    t <- set (oTime s) x (cTime k) ;;
    Ok (mkOHLC o h l c v b t)) (mkOHLC o h l c v b t).

(** 43-74; the item-level fields Symbol and Code are not copied *)
Definition ha_candle (open : F) (c : Candle) : Candle :=
  let k := blank (cTime c) in
  let k := setOpen open k in
  let k := setClose ((cOpen c +~ cHigh c +~ cLow c +~ cClose c) /~ ofZ 4) k in
  let k := setHigh (fmax (cHigh c) (fmax open (cClose c))) k in
  let k := setLow (fmax (cLow c) (fmin open (cClose c))) k in
  let k := setChange ((cClose c -~ cOpen c) /~ cOpen c) k in
  if cClose c >~ cOpen c then setBull true k else k.
Definition ToHeikinAshi (e : Item) : res Item :=
  r <- make (blank 0) (len (iCandles e)) ;;
  r <- range_ (iCandles e) (fun index candle r =>
    let open := (cOpen candle +~ cClose candle) /~ ofZ 2 in
    open <- (if index >? 1 then
               prev <- get (iCandles e) (index - 1) ;;
               Ok ((cOpen prev +~ cClose prev) /~ ofZ 2)
             else Ok open) ;;
    set r index (ha_candle open candle)) r ;;
  Ok (mkItem (iExchange e) (iInterval e) EmptyString EmptyString r).

(** 77-83, 86-93, 96-103 *)
Definition percandle (f : Candle -> F) (cs : list Candle) : res (list F) :=
  result <- make fzero (len cs) ;;
  range_ cs (fun i c r => set r i (f c)) result.
Definition HL2 := percandle (fun c => (cHigh c +~ cLow c) /~ ofZ 2).
Definition HLC3 := percandle (fun c => (cHigh c +~ cLow c +~ cClose c) /~ ofZ 3).
Definition OHLC4 := percandle (fun c => (cOpen c +~ cHigh c +~ cLow c +~ cClose c) /~ ofZ 4).

(** ** The functions that edit an item in place, over an explicit memory

    [cells]: the Candle structs.  [arrs]: the backing arrays, of pointers (None is
    nil).  An item's Candles slice is an array and a length; it starts at the
    array's beginning. *)
Record Mem := mkMem { cells : list Candle; arrs : list (list (option nat)) }.
Record MItem := mkMItem {
  mExchange : string; mInterval : Z; mSymbol : string; mCode : string;
  mArr : nat; mLen : Z }.

Definition arr_of (m : Mem) (a : nat) : list (option nat) := nth a (arrs m) [].
Definition set_arr (m : Mem) (a : nat) (l : list (option nat)) : Mem :=
  mkMem (cells m) (upd (arrs m) a l).
Definition load (m : Mem) (p : option nat) : res Candle :=
  match p with None => Panic | Some k => get (cells m) (Z.of_nat k) end.
(** e.Candles[i] as a pointer, and its assignment *)
Definition mget (m : Mem) (e : MItem) (i : Z) : res (option nat) :=
  if i <? mLen e then get (arr_of m (mArr e)) i else Panic.
Definition mset (m : Mem) (e : MItem) (i : Z) (p : option nat) : res Mem :=
  if i <? mLen e then l <- set (arr_of m (mArr e)) i p ;; Ok (set_arr m (mArr e) l) else Panic.
Definition with_len (e : MItem) (n : Z) : MItem :=
  mkMItem (mExchange e) (mInterval e) (mSymbol e) (mCode e) (mArr e) n.

(** kline.go:164-173 *)
Definition in_range (start end_ : Z) (t : Z) : bool :=
  (t =? toUnix start) || (t >? toUnix start) && (t <? toUnix end_).
Definition RemoveOutsideRange (m : Mem) (e : MItem) (start end_ : Z) : res (Mem * MItem) :=
  '(m, target) <- for_ 0 (mLen e) (fun i '(m, target) =>
    keep <- mget m e i ;;
    c <- load m keep ;;
    if in_range start end_ (cTime c) then
      m <- mset m e target keep ;; Ok (m, target + 1)
    else Ok (m, target)) (m, 0) ;;
  Ok (m, with_len e target).

(** kline.go:145-161; [i++] inside a range loop has no effect on the iteration *)
Definition RemoveOutsideRangeCopy (m : Mem) (e : MItem) (start end_ : Z) : res (Mem * MItem) :=
  nils <- make None (mLen e) ;;
  let a := length (arrs m) in
  let m := mkMem (cells m) (arrs m ++ [nils]) in
  let item := mkMItem (mExchange e) (mInterval e) EmptyString EmptyString a (mLen e) in
  m <- for_ 0 (mLen e) (fun i m =>
    p <- mget m e i ;;
    c <- load m p ;;
    let q := length (cells m) in
    let m := mkMem (cells m ++ [c]) (arrs m) in
    mset m item i (Some q)) m ;;
  RemoveOutsideRange m item start end_.

(** kline.go:176-190; the map is its list of keys *)
Definition RemoveDuplicates (m : Mem) (e : MItem) : res (Mem * MItem) :=
  '(m, target, _) <- for_ 0 (mLen e) (fun i '(m, target, lookup) =>
    keep <- mget m e i ;;
    c <- load m keep ;;
    let key := cTime c in
    if negb (existsb (Z.eqb key) lookup) then
      m <- mset m e target keep ;; Ok (m, target + 1, key :: lookup)
    else Ok (m, target, lookup)) (m, 0, []) ;;
  Ok (m, with_len e target).

(** kline.go:263-266: [clear] sets every element of the slice to nil *)
Definition Clear (m : Mem) (e : MItem) : res (Mem * MItem) :=
  m <- for_ 0 (mLen e) (fun i m => mset m e i None) m ;;
  Ok (m, with_len e 0).
End Klines.
