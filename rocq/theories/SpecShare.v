(** * SpecShare: what sharing memory means for items. *)
From Coq Require Import String Permutation.
From Verif Require Import Base Num Klines KlineMem SpecKlines.
Set Implicit Arguments.

Section Spec.
Context {N : Num}.

(** the item with these fields and these candles *)
Definition item_of (e : MItem) (cs : list Candle) : Item := mkItem (mExchange e) (mInterval e) (mSymbol e) (mCode e) cs.

(** [sees m e os]: the Candles slice of [e] holds, in order, nil where [os] has
    None and a pointer to [c] where [os] has [Some c] *)
Definition sees (m : Mem) (e : MItem) (os : list (option Candle)) : Prop :=
  (mArr e < length (arrs m))%nat /\ mLen e = len os /\ (length os <= length (arr_of m (mArr e)))%nat /\
  forall i o, nth_error os i = Some o ->
    match nth_error (arr_of m (mArr e)) i, o with
    | Some None, None => True
    | Some (Some p), Some c => nth_error (cells m) p = Some c
    | _, _ => False
    end.

(** every pointer in memory points somewhere, as pointers in Go do *)
Definition solid (m : Mem) : Prop := forall a p, In (Some p) (arr_of m a) -> (p < length (cells m))%nat.

(** nothing reachable through [e] is a candle of [l] or the array of [x] *)
Definition apart (m : Mem) (x : MItem) (l : list (nat * Candle)) (e : MItem) : Prop :=
  mArr e <> mArr x /\ forall pc, In pc l -> ~ In (Some (fst pc)) (arr_of m (mArr e)).

(** [r] was made from [e] by one of the functions that return a new item *)
Inductive made (m : Mem) (e : MItem) (m' : Mem) (r : MItem) : Prop :=
  | made_copy start end_ : RemoveOutsideRangeCopy m e start end_ = Ok (m', r) -> made m e m' r
  | made_heikin : mToHeikinAshi m e = Ok (m', r) -> made m e m' r
  | made_convert now i : mConvertToNewInterval now m e i = Ok (inr (m', r)) -> made m e m' r.

(** an item that shares its slice, or a longer piece of the same array, with [e] *)
Definition shares_array (e f : MItem) : Prop := mArr f = mArr e /\ mLen e <= mLen f.
End Spec.
