(** * SpecBar: candles with real prices, and sums over the candles of a window.

    Used to state what volume indicators compute in exact arithmetic. *)
From Coq Require Import Reals List Lra ZArith Lia.
From Verif Require Import Base Num XReal Order Klines SpecTa RSum TaRange.
Import ListNotations.
Set Implicit Arguments.
Local Open Scope R_scope.

Record bar := mkBar { bO : R; bH : R; bL : R; bC : R; bV : R }.
(** the candle [c] holds the prices of [b] *)
Definition is_bar (c : Candle (N := XR)) (b : bar) : Prop :=
  cOpen c = Fin (bO b) /\ cHigh c = Fin (bH b) /\ cLow c = Fin (bL b) /\ cClose c = Fin (bC b) /\ cVolume c = Fin (bV b).
(** low <= open, close <= high and a volume that is not negative *)
Definition well_formed (b : bar) : Prop := bL b <= bO b <= bH b /\ bL b <= bC b <= bH b /\ 0 <= bV b.
(** the sum of [f] over the bars *)
Definition total (f : bar -> R) (w : list bar) : R := Rsum (map f w).
(** quotient, 0 where it is not defined (the library replaces NaN and infinities by 0) *)
Definition ratio (a b : R) : R := if Req_EM_T b 0 then 0 else a / b.

Lemma ratio_0 a : ratio a 0 = 0.
Proof. unfold ratio. destruct (Req_EM_T 0 0); [reflexivity|contradiction]. Qed.
Lemma ratio_nz a b : b <> 0 -> ratio a b = a / b.
Proof. intros H. unfold ratio. destruct (Req_EM_T b 0); [contradiction|reflexivity]. Qed.
Lemma total_cons f b w : total f (b :: w) = f b + total f w.
Proof. reflexivity. Qed.
Lemma total_le f g w : (forall b, In b w -> f b <= g b) -> total f w <= total g w.
Proof. induction w as [|b w IH]; intros H; [apply Rle_refl|]. rewrite !total_cons. pose proof (H b (or_introl eq_refl)). assert (total f w <= total g w) by (apply IH; intros; apply H; now right). lra. Qed.
Lemma total_scal k f w : total (fun b => k * f b) w = k * total f w.
Proof. induction w as [|b w IH]; [unfold total, Rsum; cbn; lra|]. rewrite !total_cons, IH. lra. Qed.
Lemma total_pos f w : w <> [] -> (forall b, In b w -> 0 < f b) -> 0 < total f w.
Proof.
  induction w as [|b w IH]; intros Hn H; [congruence|]. rewrite total_cons. pose proof (H b (or_introl eq_refl)). destruct w as [|c w]; [unfold total, Rsum; cbn; lra|].
  assert (0 < total f (c :: w)) by (apply IH; [discriminate|intros; apply H; now right]). lra.
Qed.
Lemma total_nonneg f w : (forall b, In b w -> 0 <= f b) -> 0 <= total f w.
Proof.
  induction w as [|b w IH]; intros H; [unfold total, Rsum; cbn; lra|]. rewrite total_cons. pose proof (H b (or_introl eq_refl)).
  assert (0 <= total f w) by (apply IH; intros; apply H; now right). lra.
Qed.
(** a weighted mean lies in the range of what it averages *)
Lemma weighted_mean f v w lo hi : w <> [] -> (forall b, In b w -> 0 <= v b) -> 0 < total v w -> (forall b, In b w -> lo <= f b <= hi) ->
  lo <= total (fun b => f b * v b) w / total v w <= hi.
Proof.
  intros Hn Hv Ht Hf.
  assert (lo * total v w <= total (fun b => f b * v b) w). { rewrite <- total_scal. apply total_le. intros b Hb. pose proof (Hv b Hb). pose proof (Hf b Hb). nra. }
  assert (total (fun b => f b * v b) w <= hi * total v w). { rewrite <- total_scal. apply total_le. intros b Hb. pose proof (Hv b Hb). pose proof (Hf b Hb). nra. }
  split; apply Rmult_le_reg_r with (total v w); try assumption; unfold Rdiv; rewrite Rmult_assoc, Rinv_l; lra.
Qed.
