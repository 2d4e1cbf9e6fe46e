(** * KlineMem: items in a shared memory.  The functions of utils/klines that make
    new items, over the memory of Klines.v, and what programs do with items. *)
From Coq Require Import String Permutation.
From Verif Require Import Base Num Klines.
Set Implicit Arguments.

Section Memory.
Context {N : Num}.

(** [*p = c] *)
Definition store (m : Mem) (p : nat) (c : Candle) : Mem := mkMem (upd (cells m) p c) (arrs m).
(** [&Candle{...}] *)
Definition alloc (m : Mem) (c : Candle) : Mem * nat := (mkMem (cells m ++ [c]) (arrs m), length (cells m)).
(** [make([]*Candle, n)] *)
Definition new_array (m : Mem) (n : Z) : res (Mem * nat) :=
  nils <- make None n ;; Ok (mkMem (cells m) (arrs m ++ [nils]), length (arrs m)).
(** [*e.Candles[i]]: a nil pointer panics *)
Definition candle_at (m : Mem) (e : MItem) (i : Z) : res Candle := p <- mget m e i ;; load m p.

(** technical_analysis.go:16-40, 76-103: every function that reads an item ranges
    over e.Candles and dereferences each pointer *)
Definition candles_of (m : Mem) (e : MItem) : res (list Candle) :=
  for_ 0 (mLen e) (fun i acc => c <- candle_at m e i ;; Ok (acc ++ [c])) [].

(** technical_analysis.go:43-74 *)
Definition mToHeikinAshi (m : Mem) (e : MItem) : res (Mem * MItem) :=
  '(m, a) <- new_array m (mLen e) ;;
  let result := mkMItem (mExchange e) (mInterval e) EmptyString EmptyString a (mLen e) in
  m <- for_ 0 (mLen e) (fun index m =>
    candle <- candle_at m e index ;;
    let open := (cOpen candle +~ cClose candle) /~ ofZ 2 in
    open <- (if index >? 1 then
               prev <- candle_at m e (index - 1) ;;
               Ok ((cOpen prev +~ cClose prev) /~ ofZ 2)
             else Ok open) ;;
    let '(m, q) := alloc m (ha_candle open candle) in
    mset m result index (Some q)) m ;;
  Ok (m, result).

(** kline.go:86-97 *)
Definition massign_times (h : IntervalRangeHolder) (m : Mem) (r : MItem) : res Mem :=
  '(_, m) <- range_ (hRanges h) (fun _ rg '(target, m) =>
    range_ (irIntervals rg) (fun _ d '(target, m) =>
      if target >=? mLen r then Ok (target, m) else
      let '(m, q) := alloc m (blank (toUnix (itTime (idStart d)))) in
      m <- mset m r target (Some q) ;;
      Ok (target + 1, m)) (target, m)) (0, m) ;;
  Ok m.

(** kline.go:125-135 *)
Definition madvance (m : Mem) (e r : MItem) (k x target : Z) : res (option Z) :=
  if (x <? mLen e - 1) && (target <? mLen r - 1) then
    nxt <- candle_at m e (x + 1) ;;
    c <- candle_at m r (target + 1) ;;
    if cTime nxt =? cTime c then
      if mLen e - x - 1 <? k then Ok None else Ok (Some (target + 1))
    else Ok (Some target)
  else Ok (Some target).

(** kline.go:99-136: the field updates of one iteration ([absorb]) are written to
    the candle that candles[target] points to *)
Definition mmerge_loop (m : Mem) (e r : MItem) (k oldSecs newSecs : Z) : res Mem :=
  '(_, m) <- for_ 0 (mLen e) (fun x '(tg, m) =>
    match tg with
    | None => Ok (None, m)
    | Some target =>
        old <- candle_at m e x ;;
        p <- mget m r target ;; cur <- load m p ;;
        match p with
        | None => Panic
        | Some q =>
            let m := store m q (absorb oldSecs newSecs old cur) in
            tg <- madvance m e r k x target ;;
            Ok (tg, m)
        end
    end) (Some 0, m) ;;
  Ok m.

(** kline.go:25-142; a nil receiver is not modelled here *)
Definition mConvertToNewInterval (now : Z) (m : Mem) (e : MItem) (newInterval : Z)
  : res (kerr + Mem * MItem) :=
  if mInterval e <=? 0 then Ok (inl ErrInvalidInterval) else
  if newInterval <=? 0 then Ok (inl ErrInvalidInterval) else
  if newInterval <=? mInterval e then Ok (inl ErrCanOnlyUpscale) else
  if negb (Z.rem newInterval (mInterval e) =? 0) then Ok (inl ErrWholeNumberScaling) else
  first <- candle_at m e 0 ;;
  last <- candle_at m e (mLen e - 1) ;;
  let start := unix (cTime first) in
  let end_ := unix (cTime last) + mInterval e in
  let window := tsub end_ start in
  if negb (Z.quot window (mInterval e) =? mLen e) then Ok (inl ErrNotPadded) else
  let k := Z.quot newInterval (mInterval e) in
  '(m, a) <- new_array m (Z.quot (mLen e) k) ;;
  let r := mkMItem (mExchange e) newInterval EmptyString EmptyString a (Z.quot (mLen e) k) in
  if mLen r =? 0 then Ok (inl ErrInsufficientData) else
  holder <- CalculateCandleDateRanges now start end_ newInterval 100000 ;;
  match holder with
  | inl _ => Panic
  | inr h =>
      m <- massign_times h m r ;;
      m <- mmerge_loop m e r k (dur_secs (mInterval e)) (dur_secs newInterval) ;;
      Ok (inr (m, r))
  end.

(** kline.go:193-199: sort.Slice permutes the pointers in place until they are
    ordered by the time stamps they point to *)
Definition mSortCandlesByTimestamp (desc : bool) (m : Mem) (e : MItem) (m' : Mem) : Prop :=
  exists old sorted : list (nat * Candle),
    Permutation old sorted /\
    SortCandlesByTimestamp desc (map snd old) (map snd sorted) /\
    mLen e = len old /\
    firstn (length old) (arr_of m (mArr e)) = map (fun pc => Some (fst pc)) old /\
    Forall (fun pc => nth_error (cells m) (fst pc) = Some (snd pc)) old /\
    m' = set_arr m (mArr e) (map (fun pc => Some (fst pc)) sorted ++ skipn (length old) (arr_of m (mArr e))).

(** Go's append of one candle: in place when the array has room, otherwise into a
    new array, with room for [extra] more *)
Definition mappend (m : Mem) (e : MItem) (p : option nat) (extra : nat) : Mem * MItem :=
  let n := Z.to_nat (mLen e) in
  if (n <? length (arr_of m (mArr e)))%nat
  then (set_arr m (mArr e) (upd (arr_of m (mArr e)) n p), with_len e (mLen e + 1))
  else (mkMem (cells m) (arrs m ++ [firstn n (arr_of m (mArr e)) ++ p :: repeat None extra]),
        mkMItem (mExchange e) (mInterval e) (mSymbol e) (mCode e) (length (arrs m)) (mLen e + 1)).

(** ** What a program can do with a pool of items

    [step m P m' P']: one call of a function of package klines on an item of the
    pool, or one assignment of the user's own, takes memory [m] and pool [P] to [m']
    and [P']. *)
Inductive step (m : Mem) (P : list MItem) : Mem -> list MItem -> Prop :=
  (** e.RemoveDuplicates(), e.RemoveOutsideRange(s, t), e.Clear(), e.SortCandlesByTimestamp(desc) *)
  | does_RemoveDuplicates k e m' e' : nth_error P k = Some e ->
      RemoveDuplicates m e = Ok (m', e') -> step m P m' (upd P k e')
  | does_RemoveOutsideRange k e start end_ m' e' : nth_error P k = Some e ->
      RemoveOutsideRange m e start end_ = Ok (m', e') -> step m P m' (upd P k e')
  | does_Clear k e m' e' : nth_error P k = Some e ->
      Clear m e = Ok (m', e') -> step m P m' (upd P k e')
  | does_Sort k e desc m' : nth_error P k = Some e ->
      mSortCandlesByTimestamp desc m e m' -> step m P m' P
  (** new := e.RemoveOutsideRangeCopy(s, t), e.ToHeikinAshi(), e.ConvertToNewInterval(i) *)
  | does_Copy k e start end_ m' e' : nth_error P k = Some e ->
      RemoveOutsideRangeCopy m e start end_ = Ok (m', e') -> step m P m' (P ++ [e'])
  | does_ToHeikinAshi k e m' e' : nth_error P k = Some e ->
      mToHeikinAshi m e = Ok (m', e') -> step m P m' (P ++ [e'])
  | does_Convert k e now i m' e' : nth_error P k = Some e ->
      mConvertToNewInterval now m e i = Ok (inr (m', e')) -> step m P m' (P ++ [e'])
  (** *e.Candles[i] = c *)
  | writes_candle k e i p c : nth_error P k = Some e ->
      mget m e i = Ok (Some p) -> step m P (store m p c) P
  (** e.Candles[i] = &c;  e.Candles[i] = nil;  e.Candles[i] = f.Candles[j] *)
  | puts_candle k e i c m' : nth_error P k = Some e ->
      mset (fst (alloc m c)) e i (Some (snd (alloc m c))) = Ok m' -> step m P m' P
  | puts_nil k e i m' : nth_error P k = Some e ->
      mset m e i None = Ok m' -> step m P m' P
  | moves_candle k e i k2 f j p m' : nth_error P k = Some e -> nth_error P k2 = Some f ->
      mget m f j = Ok p -> mset m e i p = Ok m' -> step m P m' P
  (** e.Candles = append(e.Candles, &c) *)
  | appends k e c extra : nth_error P k = Some e ->
      step m P (fst (mappend (fst (alloc m c)) e (Some (snd (alloc m c))) extra))
               (upd P k (snd (mappend (fst (alloc m c)) e (Some (snd (alloc m c))) extra)))
  (** e.Candles = e.Candles[:n], up to the capacity; a second item with e's slice *)
  | reslices k e n : nth_error P k = Some e ->
      0 <= n <= len (arr_of m (mArr e)) -> step m P m (upd P k (with_len e n))
  | shares k e ex iv sy co : nth_error P k = Some e ->
      step m P m (P ++ [mkMItem ex iv sy co (mArr e) (mLen e)]).

Inductive steps : Mem -> list MItem -> Mem -> list MItem -> Prop :=
  | no_step m P : steps m P m P
  | more_steps m P m1 P1 m2 P2 : step m P m1 P1 -> steps m1 P1 m2 P2 -> steps m P m2 P2.
End Memory.
