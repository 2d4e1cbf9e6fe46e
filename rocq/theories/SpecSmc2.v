(** * SpecSmc2: swing points, breaks and order blocks of SmartMoneyConcepts, described without a state machine.

    Everything is said about the candles themselves: which candles are turning points of the market on
    a scale, which closes break them, whether a break goes against the one before, and which candle
    becomes the order block of a break. *)
From Verif Require Import Base Num Klines IndBase Smc SpecTa SpecSmc.
Set Implicit Arguments.

(** the short scale looks 5 candles ahead, the long one as many as the parameter says *)
Inductive scale : Type := Short | Long.

Section SpecSmc2.
Context {N : Num}.
Variables (hs ls cs : list F) (long : nat).

Definition span (sc : scale) : nat := match sc with Short => 5 | Long => long end.
(** the first candle at which swing points are looked for *)
Definition start : nat := Nat.max 1 long.

(** Candle [k] is a swing high, or a swing low that is not a swing high as well. *)
Definition swing (high : bool) (sc : scale) (k : nat) : Prop :=
  if high then swing_high hs (span sc) k else swing_low ls (span sc) k /\ ~ swing_high hs (span sc) k.
(** ... found [span] candles later, not before [start]. *)
Definition found (high : bool) (sc : scale) (k : nat) : Prop := (start <= k + span sc)%nat /\ swing high sc k.
(** It is a turning point when the market has swung the other way since the last one of its side.  The
    first turning point is a low. *)
Definition turn (high : bool) (sc : scale) (k : nat) : Prop :=
  found high sc k /\
  (forall k1, (k1 < k)%nat -> found high sc k1 -> exists k2, (k1 < k2 < k)%nat /\ found (negb high) sc k2) /\
  (high = true -> exists k1, (k1 < k)%nat /\ found false sc k1).
Definition price (high : bool) (k : nat) : F := nth k (if high then hs else ls) fzero.
(** the latest turning point of a side that is known at the close of candle [i] *)
Definition latest (high : bool) (sc : scale) (k i : nat) : Prop :=
  turn high sc k /\ (k + span sc <= i)%nat /\ forall k', turn high sc k' -> (k' + span sc <= i)%nat -> (k' <= k)%nat.

(** the close of candle [i] crosses the level [y] upwards (downwards) *)
Definition crosses (up : bool) (y : F) (i : nat) : Prop :=
  (1 <= i < length cs)%nat /\
  if up then (nth (i - 1) cs fzero <~ y) = true /\ (y <~ nth i cs fzero) = true
  else (y <~ nth (i - 1) cs fzero) = true /\ (nth i cs fzero <~ y) = true.
(** It crosses the level of the latest turning point; on the short scale a level that equals the long one
    does not count. *)
Definition passes (high : bool) (sc : scale) (k i : nat) : Prop :=
  latest high sc k i /\ crosses high (price high k) i /\
  (sc = Short -> forall k', latest high Long k' i -> (price high k' ==~ price high k) = false).
(** Candle [i] breaks turning point [k]: it is the first one to pass it. *)
Definition breaks (high : bool) (sc : scale) (k i : nat) : Prop :=
  passes high sc k i /\ forall i', (i' < i)%nat -> ~ passes high sc k i'.

(** the last break of the scale before candle [i] was one of the other side *)
Definition against (high : bool) (sc : scale) (i : nat) : Prop :=
  exists k0 i0, (i0 < i)%nat /\ breaks (negb high) sc k0 i0 /\ forall k' i', (i0 < i' < i)%nat -> ~ breaks high sc k' i'.
(** the last break of the short scale up to candle [i] was one of a high *)
Definition short_rising (i : nat) : Prop :=
  exists k0 i0, (i0 <= i)%nat /\ breaks true Short k0 i0 /\ forall k' i', (i0 < i' <= i)%nat -> ~ breaks false Short k' i'.

(** The level shown in row [j] by the breaks in [P]: the turning point of the last one whose line from turning
    point to breaking candle covers the row, and zero when there is none. *)
Definition shown (high : bool) (P : nat -> nat -> Prop) (j : nat) (y : F) : Prop :=
  (exists k i, P k i /\ (k <= j <= i)%nat /\ y = price high k /\ forall k' i', P k' i' -> (k' <= j <= i')%nat -> (i' <= i)%nat) \/
  (y = fzero /\ forall k i, P k i -> ~ (k <= j <= i)%nat).

(** the order block of a break: among the candles from turning point to break that move less than
    twice the average true range, the one with the highest high (a top block, after a low was broken) or
    lowest low (a bottom block), the earliest one if there are several; candle 1 if there is none at all *)
Definition calm (atr : list F) (q : nat) : Prop := ((nth q hs fzero -~ nth q ls fzero) <~ (nth q atr fzero *~ ofZ 2)) = true.
Definition beyond (top : bool) (q q' : nat) : Prop :=
  if top then (nth q' hs fzero <~ nth q hs fzero) = true else (nth q ls fzero <~ nth q' ls fzero) = true.
Definition block_candle (atr : list F) (top : bool) (k i q : nat) : Prop :=
  ((k <= q <= i)%nat /\ calm atr q /\
   forall q', (k <= q' <= i)%nat -> calm atr q' -> q' <> q -> ~ beyond top q' q /\ ((q' < q)%nat -> beyond top q q')) \/
  (q = 1%nat /\ forall q', (k <= q' <= i)%nat -> ~ calm atr q').

(** [y], dated [x]: the highest high (lowest low) from candle [k] up to but not including candle [e], at its last occurrence *)
Definition extreme_since (high : bool) (k e x : nat) (y : F) : Prop :=
  (k <= x < e)%nat /\ (y ==~ price high x) = true /\
  (forall q, (k <= q < e)%nat -> if high then (price high x <~ price high q) = false else (price high q <~ price high x) = false) /\
  (forall q, (x < q < e)%nat -> if high then (price high q <~ price high x) = true else (price high x <~ price high q) = true).
End SpecSmc2.

(** The order blocks of a scale after the first [i] candles, newest first: a break adds its block unless it is there already; then
    the blocks the close has gone beyond are dropped, and so are those behind position [number] (counted from 0). *)
Section Blocks.
Context {N : Num}.
Variables (oh : OHLC) (long : nat) (atr : list F) (number : Z) (sc : scale).
Local Notation breaks := (breaks (oHigh oh) (oLow oh) (oClose oh) long).
Definition spent (close : F) (b : Block) : bool := if bkTop b then bkHigh b <~ close else close <~ bkClose b.
Definition survivors (i : nat) (l : list Block) : list Block :=
  filter (fun b => negb (spent (nth i (oClose oh) fzero) b)) (firstn (Z.to_nat (number + 1)) l).
Inductive blocks_after : nat -> list Block -> Prop :=
| blocks_start : blocks_after 0 []
| blocks_quiet i l : blocks_after i l -> (forall high k, ~ breaks high sc k i) -> blocks_after (S i) (survivors i l)
| blocks_break i l high k q b : blocks_after i l -> breaks high sc k i ->
    block_candle (oHigh oh) (oLow oh) atr (negb high) k i q -> block_of oh q b -> bkTop b = negb high ->
    forall l', (In (block_key b) (map block_key l) /\ l' = l) \/ (~ In (block_key b) (map block_key l) /\ l' = b :: l) ->
    blocks_after (S i) (survivors i l').
End Blocks.
