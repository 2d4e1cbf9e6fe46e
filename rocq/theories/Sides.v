(** * Sides: model of utils/Side.go and utils/interface.go. *)
From Coq Require Import String.
From Verif Require Import Base.
Set Implicit Arguments.

(** utils/Side.go:4-17.  [Side] is a uint32; [Sell Side = 1 << iota] has iota = 1,
    so the constants are 0, 2 and 4 and the zero value of a Side is Buy. *)
Definition Side := Z.
Definition Buy : Side := 0.
Definition Sell : Side := 2.
Definition Hold : Side := 4.

(** Side.go:20-31 *)
Definition side_string (s : Side) : string :=
  if s =? Buy then "BUY"%string else if s =? Sell then "SELL"%string
  else if s =? Hold then "HOLD"%string else "UNKNOWN"%string.
(** Side.go:34-40 *)
Definition sides_strings (s : list Side) : res (list string) :=
  strs <- make EmptyString (len s) ;;
  for_ 0 (len s) (fun x strs => v <- get s x ;; set strs x (side_string v)) strs.

(** Side.go:8-11 *)
Record SideData := mkSideData { sdName : string; sdData : list Side }.

(** interface.go:3-16.  A strategy is a value of some state type [W] reaching
    computation: calling AnalysisSide may read and change the world [W] (the
    indicator caches its results) and may panic. *)
Definition Strategy (W : Type) := W -> res (W * SideData).
Definition emptySideData : SideData := mkSideData EmptyString [].
Definition RunStrategies (W : Type) (strategies : list (Strategy W)) (w : W)
  : res (W * list SideData) :=
  actions <- make emptySideData (len strategies) ;;
  for_ 0 (len strategies) (fun i '(w, actions) =>
    s <- get strategies i ;;
    '(w, d) <- s w ;;
    actions <- set actions i d ;;
    Ok (w, actions)) (w, actions).
