(** * SpecKlines: what the kline and strategy helpers are supposed to do. *)
From Verif Require Import Base Num XReal Sides Klines SpecTa.
Set Implicit Arguments.

(** ** RunStrategies: call each strategy once, in order, in the world left by the
    previous ones, and collect the results. *)
Inductive called_in_order (W : Type) : list (Strategy W) -> W -> W -> list SideData -> Prop :=
  | no_calls w : called_in_order [] w w []
  | one_call s ss w w1 w2 d ds :
      s w = Ok (w1, d) -> called_in_order ss w1 w2 ds ->
      called_in_order (s :: ss) w w2 (d :: ds).

Section Spec.
Context {N : Num}.

(** ** Items in memory

    [shows m e l]: the Candles slice of [e] holds exactly the pointers, pointing to
    the candles, listed in [l]. *)
Definition shows (m : Mem) (e : MItem) (l : list (nat * Candle)) : Prop :=
  (mArr e < length (arrs m))%nat /\
  mLen e = len l /\
  firstn (length l) (arr_of m (mArr e)) = map (fun pc => Some (fst pc)) l /\
  Forall (fun pc => nth_error (cells m) (fst pc) = Some (snd pc)) l.

(** the entry of index [i] is the first one with its time stamp *)
Definition is_first (l : list (nat * Candle)) (i : nat) : bool :=
  match nth_error l i with
  | None => false
  | Some (_, c) => forallb (fun pc => negb (cTime (snd pc) =? cTime c)) (firstn i l)
  end.
(** the entries of [l] whose index satisfies [d], in order *)
Definition select {A} (d : nat -> bool) (l : list A) : list A :=
  flat_map (fun i => if d i then match nth_error l i with Some x => [x] | None => [] end else [])
           (seq 0 (length l)).

(** at start, or strictly between start and end, to the second *)
Definition within (start end_ t : Z) : bool :=
  (toUnix start =? t) || (toUnix start <? t) && (t <? toUnix end_).
(** the arrays other than [a], and the candles, are as before *)
Definition only_array (a : nat) (m m' : Mem) : Prop :=
  cells m' = cells m /\ length (arrs m') = length (arrs m) /\
  forall b, b <> a -> arr_of m' b = arr_of m b.
(** everything that existed before is as before *)
Definition grown (m m' : Mem) : Prop :=
  firstn (length (cells m)) (cells m') = cells m /\
  firstn (length (arrs m)) (arrs m') = arrs m.

(** ** Orders of time stamps *)
Definition ascending (l : list Candle) : Prop :=
  forall i j a b, (i < j)%nat -> nth_error l i = Some a -> nth_error l j = Some b -> cTime a <= cTime b.
Definition descending (l : list Candle) : Prop :=
  forall i j a b, (i < j)%nat -> nth_error l i = Some a -> nth_error l j = Some b -> cTime b <= cTime a.

(** ** Padding: the candle of the window's k-th slot *)
Definition slot_time (start interval : Z) (k : nat) : Z := toUnix (start + Z.of_nat k * interval).
Definition slot (cs : list Candle) (t : Z) : Candle :=
  match find (fun c => cTime c =? t) cs with Some c => c | None => blank t end.
Definition increasing (cs : list Candle) : Prop :=
  forall i j ci cj, (i < j)%nat -> nth_error cs i = Some ci -> nth_error cs j = Some cj ->
    cTime ci < cTime cj.
(** every candle older than some slot of the window is on the window's grid *)
Definition aligned (cs : list Candle) (start interval : Z) (n : nat) : Prop :=
  forall c k, In c cs -> (k < n)%nat -> cTime c < slot_time start interval k ->
    exists j, (j < n)%nat /\ cTime c = slot_time start interval j.
Definition empty_candle (c : Candle) : bool :=
  (cVolume c ==~ ofZ 0) && (cOpen c ==~ ofZ 0) && (cHigh c ==~ ofZ 0)
  && (cLow c ==~ ofZ 0) && (cClose c ==~ ofZ 0).
(** the list without its last candle if that one is empty *)
Definition purged (l : list Candle) : list Candle :=
  if empty_candle (last l (blank 0)) then removelast l else l.

Definition with_candles (e : Item) (cs : list Candle) : Item :=
  mkItem (iExchange e) (iInterval e) (iSymbol e) (iCode e) cs.

(** ** Conversion *)
(** one candle every [s] seconds, from [t0] on *)
Definition evenly (cs : list Candle) (t0 s : Z) : Prop :=
  forall k c, nth_error cs k = Some c -> cTime c = t0 + Z.of_nat k * s.
(** the j-th group of [k] consecutive candles *)
Definition group (cs : list Candle) (k j : nat) : list Candle := firstn k (skipn (j * k) cs).
(** [c] aggregates the candles of [g]; its extremes are those of [hl] *)
Definition aggregates (g hl : list Candle) (c : Candle) : Prop :=
  cTime c = cTime (hd (blank 0) g) /\
  cOpen c = cOpen (hd (blank 0) g) /\ cClose c = cClose (last g (blank 0)) /\
  max_of (cHigh c) (map cHigh hl) /\ min_of (cLow c) (map cLow hl) /\
  cVolume c = fold_left fadd (map cVolume g) fzero /\
  cChange c = (cClose c -~ cOpen c) /~ cOpen c /\ cBull c = (cClose c >~ cOpen c).
(** highs and lows are numbers, no low is 0 *)
Definition priced (cs : list Candle) : Prop :=
  Forall (fun c => isNaN (cHigh c) = false /\ isNaN (cLow c) = false /\ (cLow c ==~ ofZ 0) = false) cs.
End Spec.

(** ** Date ranges *)
(** neither instant is the zero time or the Unix epoch, which the code takes for "unset" *)
Definition set_times (start end_ : Z) : Prop :=
  start <> zero_time /\ start <> unix 0 /\ end_ <> zero_time /\ end_ <> unix 0.
(** the k-th interval of a window starting at [s] *)
Definition interval_at (s interval : Z) (k : nat) : IntervalData :=
  mkID (CreateIntervalTime (s + Z.of_nat k * interval))
       (CreateIntervalTime (s + Z.of_nat (S k) * interval)) false.
(** [r] spans its intervals: it starts with the first one and ends with the last one *)
Definition range_spans (r : IntervalRange) : Prop :=
  match irIntervals r with
  | [] => itTime (irStart r) = itTime (irEnd r)
  | d :: l => irStart r = idStart d /\ irEnd r = idEnd (last (d :: l) d)
  end.
(** a multiple of [d] counted from the zero time, nearest to [t], halves going up *)
Definition nearest (t d r : Z) : Prop :=
  (exists k, r = zero_time + k * d) /\ 2 * (t - r) < d /\ 2 * (r - t) <= d.
(** the two holders differ in the HasData flags only *)
Definition unflag (d : IntervalData) : IntervalData := mkID (idStart d) (idEnd d) false.
Definition same_but_flags (h h' : IntervalRangeHolder) : Prop :=
  hStart h' = hStart h /\ hEnd h' = hEnd h /\
  Forall2 (fun r r' => irStart r' = irStart r /\ irEnd r' = irEnd r /\
                       map unflag (irIntervals r') = map unflag (irIntervals r))
          (hRanges h) (hRanges h').
Definition intervals (h : IntervalRangeHolder) : list IntervalData :=
  flat_map irIntervals (hRanges h).

(** ** Candles with real prices (exact arithmetic) *)
Definition real_candle (c : @Candle XR) (o h l cl : R) : Prop :=
  cOpen c = Fin o /\ cHigh c = Fin h /\ cLow c = Fin l /\ cClose c = Fin cl.
(** low <= open, close <= high *)
Definition well_formed (c : @Candle XR) : Prop :=
  exists o h l cl, real_candle c o h l cl /\ (l <= o <= h)%R /\ (l <= cl <= h)%R.
