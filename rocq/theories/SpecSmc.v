(** * SpecSmc: what the SmartMoneyConcepts theorems say, in terms of the candles. *)
From Verif Require Import Base Num Klines IndBase Smc SpecTa.
Set Implicit Arguments.

Section SpecSmc.
Context {N : Num}.
Local Notation fl := (list F).

(** Candle [k] is a swing high (low) over the [n] candles after it: none of them
    reaches its high (low). *)
Definition swing_high (hs : fl) (n k : nat) : Prop :=
  (k + n < length hs)%nat /\ forall q, (k < q <= k + n)%nat -> (nth k hs fzero <=~ nth q hs fzero) = false.
Definition swing_low (ls : fl) (n k : nat) : Prop :=
  (k + n < length ls)%nat /\ forall q, (k < q <= k + n)%nat -> (nth q ls fzero <=~ nth k ls fzero) = false.

(** [y] is the high of a swing high [k], confirmed before the close of candle [i]
    crossed above it, and candle [j] lies between the two. *)
Definition broken_high (hs cs : fl) (n j : nat) (y : F) : Prop :=
  exists k i, (k <= j <= i)%nat /\ (k + n <= i)%nat /\ (1 <= i < length cs)%nat /\
    swing_high hs n k /\ y = nth k hs fzero /\
    (nth (i - 1) cs fzero <~ y) = true /\ (y <~ nth i cs fzero) = true.
Definition broken_low (ls cs : fl) (n j : nat) (y : F) : Prop :=
  exists k i, (k <= j <= i)%nat /\ (k + n <= i)%nat /\ (1 <= i < length cs)%nat /\
    swing_low ls n k /\ y = nth k ls fzero /\
    (y <~ nth (i - 1) cs fzero) = true /\ (nth i cs fzero <~ y) = true.

(** Candle [k] is a pivot with [b] candles on both sides: the highest (lowest) of these. *)
Definition pivot_high (hs : fl) (b k : nat) : Prop :=
  (b <= k)%nat /\ (k + b < length hs)%nat /\ max_of (nth k hs fzero) (window hs (k + b) (S (b + b))).
Definition pivot_low (ls : fl) (b k : nat) : Prop :=
  (b <= k)%nat /\ (k + b < length ls)%nat /\ min_of (nth k ls fzero) (window ls (k + b) (S (b + b))).
(** [y] is (equal to) the high of pivot [k], a later pivot [k'] has nearly the same high,
    and candle [j] lies between the two. *)
Definition equal_highs (hs atr : fl) (b : nat) (thr : Z) (j : nat) (y : F) : Prop :=
  exists k k', (k <= j <= k')%nat /\ pivot_high hs b k /\ pivot_high hs b k' /\ (y ==~ nth k hs fzero) = true /\
    exists y', (y' ==~ nth k' hs fzero) = true /\
    (fmax y' y <~ (fmin y' y +~ nth (k' + b) atr fzero *~ ofZ thr /~ ofZ 10)) = true.
Definition equal_lows (ls atr : fl) (b : nat) (thr : Z) (j : nat) (y : F) : Prop :=
  exists k k', (k <= j <= k')%nat /\ pivot_low ls b k /\ pivot_low ls b k' /\ (y ==~ nth k ls fzero) = true /\
    exists y', (y' ==~ nth k' ls fzero) = true /\
    ((fmax y' y -~ nth (k' + b) atr fzero *~ ofZ thr /~ ofZ 10) <~ fmin y' y) = true.

(** The OHLC slices of [n] candles. *)
Definition shaped (oh : OHLC) (n : nat) : Prop :=
  length (oOpen oh) = n /\ length (oHigh oh) = n /\ length (oLow oh) = n /\ length (oClose oh) = n /\ length (oTime oh) = n.

(** An order block is candle [k]: its open, high, low, close and time. *)
Definition block_of (oh : OHLC) (k : nat) (b : Block) : Prop :=
  bkTime b = unix (nth k (oTime oh) 0) /\ bkOpen b = nth k (oOpen oh) fzero /\ bkHigh b = nth k (oHigh oh) fzero /\
  bkLow b = nth k (oLow oh) fzero /\ bkClose b = nth k (oClose oh) fzero.
(** two blocks are the same block when side and time agree *)
Definition block_key (b : Block) : bool * Z := (bkTop b, bkTime b).
(** a close beyond the block: below the close of a bottom block, above the high of a top block *)
Definition broken_by (close : F) (b : Block) : Prop :=
  (bkTop b = false /\ (close <~ bkClose b) = true) \/ (bkTop b = true /\ (bkHigh b <~ close) = true).

Definition field_of (f : field) (v : SmcVal) : F :=
  match f with
  | fHighBOSShort => HighBOSShort v | fHighCHoCHShort => HighCHoCHShort v
  | fHighBOSLong => HighBOSLong v | fHighCHoCHLong => HighCHoCHLong v
  | fLowBOSShort => LowBOSShort v | fLowChoCHShort => LowChoCHShort v
  | fLowBOSLong => LowBOSLong v | fLowChoCHLong => LowChoCHLong v
  | fEQH => EQH v | fEQL => EQL v
  end.
End SpecSmc.
