(** * Durations: the text of an interval.

    utils/klines/kline.go:12-20 and the constants of utils/klines/kline_type.go:9-43.
    Interval.String hands the interval to time.Duration.String, a function of Go's
    standard library; it is modelled here with its two helpers, byte for byte, because
    the text of an interval is what the package's error messages are made of.  The
    buffer that Go fills from its end is the string built here by adding characters
    in front. *)
From Coq Require Import ZArith List Ascii String.
Import ListNotations.
Open Scope Z_scope.

(** the character '0' + d; Go: byte(v%10) + '0' *)
Definition digit (d : Z) : ascii := ascii_of_nat (48 + Z.to_nat d).

(** time.fmtInt (Go standard library, time/time.go): writes v in decimal in front of
    [acc].  The fuel is 20, the number of digits a uint64 can have. *)
Fixpoint fmtIntLoop (fuel : nat) (v : Z) (acc : string) : string :=
  match fuel with
  | O => acc
  | S f => if 0 <? v then fmtIntLoop f (v / 10) (String (digit (v mod 10)) acc) else acc
  end.
Definition fmtInt (v : Z) (acc : string) : string := if v =? 0 then String (digit 0) acc else fmtIntLoop 20 v acc.

(** time.fmtFrac: writes the fraction v/10^prec in front of [acc], without trailing zeros and
    without the point when it is zero, and returns v / 10^prec *)
Fixpoint fmtFracLoop (prec : nat) (print : bool) (v : Z) (acc : string) : bool * Z * string :=
  match prec with
  | O => (print, v, acc)
  | S n => let print' := (print || negb (v mod 10 =? 0))%bool in fmtFracLoop n print' (v / 10) (if print' then String (digit (v mod 10)) acc else acc)
  end.
Definition fmtFrac (v : Z) (prec : nat) (acc : string) : Z * string :=
  let '(print, v', acc') := fmtFracLoop prec false v acc in (v', if print then String "."%char acc' else acc').

(** time.Duration.String; [d] is a number of nanoseconds *)
Definition Duration_abs_String (u : Z) : string :=
  if u <? 1000000000 then
    if u =? 0 then "0s"%string
    else if u <? 1000 then let '(v, acc) := fmtFrac u 0 "ns" in fmtInt v acc
    else if u <? 1000000 then let '(v, acc) := fmtFrac u 3 "µs" in fmtInt v acc
    else let '(v, acc) := fmtFrac u 6 "ms" in fmtInt v acc
  else
    let '(v, acc) := fmtFrac u 9 "s" in
    let acc := fmtInt (v mod 60) acc in
    let v := v / 60 in
    if 0 <? v then
      let acc := fmtInt (v mod 60) (String "m"%char acc) in
      let v := v / 60 in
      if 0 <? v then fmtInt v (String "h"%char acc) else acc
    else acc.
Definition Duration_String (d : Z) : string :=
  let s := Duration_abs_String (Z.abs d) in if d <? 0 then String "-"%char s else s.
(** Interval.String, Interval.Duration: utils/klines/kline.go:12-20 *)
Definition Interval_Duration (i : Z) : Z := i.
Definition Interval_String (i : Z) : string := Duration_String (Interval_Duration i).

(** utils/klines/kline_type.go:9-43, in the order of the file *)
Definition HundredMilliseconds := 100 * 1000000.
Definition ThousandMilliseconds := 10 * HundredMilliseconds.
Definition TenSecond := 10 * 1000000000.
Definition FifteenSecond := 15 * 1000000000.
Definition ThirtySecond := 2 * FifteenSecond.
Definition OneMin := 60 * 1000000000.
Definition ThreeMin := 3 * OneMin.
Definition FiveMin := 5 * OneMin.
Definition TenMin := 10 * OneMin.
Definition FifteenMin := 15 * OneMin.
Definition ThirtyMin := 30 * OneMin.
Definition OneHour := 60 * OneMin.
Definition TwoHour := 2 * OneHour.
Definition ThreeHour := 3 * OneHour.
Definition FourHour := 4 * OneHour.
Definition SixHour := 6 * OneHour.
Definition SevenHour := 7 * OneHour.
Definition EightHour := 8 * OneHour.
Definition TwelveHour := 12 * OneHour.
Definition OneDay := 24 * OneHour.
Definition TwoDay := 2 * OneDay.
Definition ThreeDay := 3 * OneDay.
Definition SevenDay := 7 * OneDay.
Definition FifteenDay := 15 * OneDay.
Definition OneWeek := 7 * OneDay.
Definition TwoWeek := 2 * OneWeek.
Definition ThreeWeek := 3 * OneWeek.
Definition OneMonth := 30 * OneDay.
Definition ThreeMonth := 90 * OneDay.
Definition SixMonth := 2 * ThreeMonth.
Definition NineMonth := 3 * ThreeMonth.
Definition OneYear := 365 * OneDay.
Definition FiveDay := 5 * OneDay.
