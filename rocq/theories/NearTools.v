(** * NearTools: float64 operations next to exact ones. *)
From Coq Require Import Reals Lra ZArith Lia Bool List PeanoNat SpecFloat.
From Flocq Require Import Core.
From Verif Require Import Base Num B64 XReal Order Rounding FloatLaws RSum Ta TaTools SpecTa TaAvg Sides Klines IndBase IndForms SpecNum FloatError PropFloat SpecTies.
Import ListNotations.
Set Implicit Arguments.
Local Open Scope R_scope.

Section Near.
Variable L : MathLib.
Local Notation N := (B64 L).

(** [x] is within [e] of [a], and [a] is at most [M] *)
Definition close (M e : R) (x : @F N) (a : @F XR) : Prop := exists s, fin x /\ a = Fin s /\ Rabs (val x - s) <= e /\ Rabs s <= M.
Lemma close_near M e e' x a : close M e x a -> e <= e' -> near e' x a.
Proof. intros (s & Hx & E & H1 & H2) He. exists (val x), s. split; [split; [exact Hx|reflexivity]|]. split; [exact E|lra]. Qed.
Lemma close_le M e M' e' x a : close M e x a -> M <= M' -> e <= e' -> close M' e' x a.
Proof. intros (s & Hx & E & H1 & H2) HM He. exists s. repeat split; try assumption; try apply Hx; lra. Qed.
Lemma same_close M x a : same_price M x a -> close M 0 x a.
Proof. intros (r & [Hx <-] & E & H). exists (val x). repeat split; try assumption; try apply Hx. rewrite Rminus_diag_eq, Rabs_R0 by reflexivity. lra. Qed.
Lemma close_e M e x a : close M e x a -> 0 <= e.
Proof. intros (s & _ & _ & H & _). pose proof (Rabs_pos (val x - s)). lra. Qed.
Lemma close_M M e x a : close M e x a -> 0 <= M.
Proof. intros (s & _ & _ & _ & H). pose proof (Rabs_pos s). lra. Qed.
Lemma close_abs M e x a : close M e x a -> Rabs (val x) <= M + e.
Proof. intros (s & _ & _ & H1 & H2). replace (val x) with (s + (val x - s)) by ring. eapply Rle_trans; [apply Rabs_triang|]. lra. Qed.

(** ** Comparisons *)
Lemma close_lt M e M' e' x y a b : close M e x a -> close M' e' y b ->
  (forall s t, a = Fin s -> b = Fin t -> e + e' < Rabs (s - t)) -> (x <~ y) = (a <~ b).
Proof.
  intros (s & Hx & -> & H1 & _) (t & Hy & -> & H2 & _) Hd. specialize (Hd s t eq_refl eq_refl). cbn [flt B64 XR]. rewrite lt_val by assumption. cbn.
  destruct (Rltb_spec (val x) (val y)) as [A|A], (Rltb_spec s t) as [B|B]; try reflexivity; exfalso; apply Flocq.Core.Raux.Rabs_le_inv in H1; apply Flocq.Core.Raux.Rabs_le_inv in H2; unfold Rabs in Hd; destruct (Rcase_abs (s - t)); lra.
Qed.
Lemma close_Z z : (Z.abs z <= 2 ^ 53)%Z -> close (Rabs (IZR z)) 0 (ofZ z) (ofZ z).
Proof. intros Hz. destruct (@ofZ_val z Hz) as [A B]. exists (IZR z). cbn [ofZ B64]. rewrite B. repeat split; try apply A; try lra. rewrite Rminus_diag_eq, Rabs_R0 by reflexivity. lra. Qed.

(** ** Subtraction as the library does it: x + y * -1 *)
Lemma rnd_val x : fin x -> rnd (val x) = val x.
Proof. intros H. apply round_generic; [apply valid_rnd_N|]. exact (val_format H). Qed.
Lemma neg_exact (y : @F N) : fin y -> fin (y *~ ofZ (-1)) /\ val (y *~ ofZ (-1)) = - val y.
Proof.
  intros Hy. destruct (@ofZ_val (-1)) as [A B]; [cbn; lia|]. destruct (val_opp Hy) as [Fo Vo].
  assert (E : val y * val (b_ofZ (-1)) = val (SFopp y)) by (rewrite B, Vo; change (IZR (-1)) with (-1); ring).
  destruct (@mul_val y (b_ofZ (-1)) Hy A) as [F1 V1].
  - rewrite E, (rnd_val Fo). destruct (fin_B Fo) as (b & _ & _ & ->). apply BinarySingleNaN.abs_B2R_lt_emax.
  - cbn [fmul ofZ B64]. split; [exact F1|]. rewrite V1, E, (rnd_val Fo). exact Vo.
Qed.
Lemma close_sub M e M' e' x y a b : close M e x a -> close M' e' y b -> M + M' + e + e' <= big ->
  close (M + M') (e + e' + u * (M + M' + e + e')) (x +~ y *~ ofZ (-1)) (a +~ b *~ ofZ (-1)).
Proof.
  intros Hc Hc' Hb. pose proof (close_abs Hc) as X. pose proof (close_abs Hc') as Y. destruct Hc as (s & Hx & -> & H1 & H2), Hc' as (t & Hy & -> & H3 & H4).
  destruct (neg_exact Hy) as [Fn Vn]. exists (s + t * -1). pose proof u_pos as Pu.
  assert (A : Rabs (val x + val (y *~ ofZ (-1))) <= M + M' + e + e') by (rewrite Vn; eapply Rle_trans; [apply Rabs_triang|]; rewrite Rabs_Ropp; lra).
  destruct (@add_err L x (y *~ ofZ (-1)) Hx Fn ltac:(lra)) as [Fd Ed]. split; [exact Fd|]. split; [reflexivity|]. split.
  - replace (val (x +~ y *~ ofZ (-1)) - (s + t * -1)) with ((val (x +~ y *~ ofZ (-1)) - (val x + val (y *~ ofZ (-1)))) + ((val x - s) + - (val y - t))) by (rewrite Vn; ring).
    eapply Rle_trans; [apply Rabs_triang|]. assert (Rabs ((val x - s) + - (val y - t)) <= e + e') by (eapply Rle_trans; [apply Rabs_triang|]; rewrite Rabs_Ropp; lra).
    assert (u * Rabs (val x + val (y *~ ofZ (-1))) <= u * (M + M' + e + e')) by (apply Rmult_le_compat_l; lra). lra.
  - eapply Rle_trans; [apply Rabs_triang|]. replace (t * -1) with (- t) by ring. rewrite Rabs_Ropp. lra.
Qed.
Lemma close_sub' M e M' e' x y a b : close M e x a -> close M' e' y b -> M + M' + e + e' <= big ->
  close (M + M') (e + e' + u * (M + M' + e + e')) (x -~ y) (a -~ b).
Proof.
  intros Hc Hc' Hb. pose proof (close_abs Hc) as X. pose proof (close_abs Hc') as Y. destruct Hc as (s & Hx & -> & H1 & H2), Hc' as (t & Hy & -> & H3 & H4).
  exists (s + - t). pose proof u_pos as Pu.
  assert (A : Rabs (val x - val y) <= M + M' + e + e') by (unfold Rminus; eapply Rle_trans; [apply Rabs_triang|]; rewrite Rabs_Ropp; lra).
  destruct (@sub_err L x y Hx Hy ltac:(lra)) as [Fd Ed]. split; [exact Fd|]. split; [reflexivity|]. split.
  - replace (val (x -~ y) - (s + - t)) with ((val (x -~ y) - (val x - val y)) + ((val x - s) + - (val y - t))) by ring.
    eapply Rle_trans; [apply Rabs_triang|]. assert (Rabs ((val x - s) + - (val y - t)) <= e + e') by (eapply Rle_trans; [apply Rabs_triang|]; rewrite Rabs_Ropp; lra).
    assert (u * Rabs (val x - val y) <= u * (M + M' + e + e')) by (apply Rmult_le_compat_l; lra). lra.
  - eapply Rle_trans; [apply Rabs_triang|]. rewrite Rabs_Ropp. lra.
Qed.
Lemma close_add M e M' e' x y a b : close M e x a -> close M' e' y b -> M + M' + e + e' <= big ->
  close (M + M') (e + e' + u * (M + M' + e + e')) (x +~ y) (a +~ b).
Proof.
  intros Hc Hc' Hb. pose proof (close_abs Hc) as X. pose proof (close_abs Hc') as Y. destruct Hc as (s & Hx & -> & H1 & H2), Hc' as (t & Hy & -> & H3 & H4).
  exists (s + t). pose proof u_pos as Pu.
  assert (A : Rabs (val x + val y) <= M + M' + e + e') by (eapply Rle_trans; [apply Rabs_triang|]; lra).
  destruct (@add_err L x y Hx Hy ltac:(lra)) as [Fd Ed]. split; [exact Fd|]. split; [reflexivity|]. split.
  - replace (val (x +~ y) - (s + t)) with ((val (x +~ y) - (val x + val y)) + ((val x - s) + (val y - t))) by ring.
    eapply Rle_trans; [apply Rabs_triang|]. assert (Rabs ((val x - s) + (val y - t)) <= e + e') by (eapply Rle_trans; [apply Rabs_triang|]; lra).
    assert (u * Rabs (val x + val y) <= u * (M + M' + e + e')) by (apply Rmult_le_compat_l; lra). lra.
  - eapply Rle_trans; [apply Rabs_triang|]. lra.
Qed.
(** multiplication by a constant that float64 represents *)
Lemma close_scale (c : @F N) (r : R) M e x a : fin c -> val c = r -> 0 <= r -> close M e x a -> r * (M + e) <= big ->
  close (r * M) (r * e + u * (r * (M + e)) + tiny / 2) (x *~ c) (a *~ (Fin r : @F XR)).
Proof.
  intros Fc Vc Hr Hc Hb. pose proof (close_abs Hc) as X. destruct Hc as (s & Hx & -> & H1 & H2). pose proof u_pos as Pu. exists (s * r).
  assert (A : Rabs (val x * val c) <= r * (M + e)) by (rewrite Vc, Rabs_mult, (Rabs_pos_eq r), Rmult_comm by exact Hr; apply Rmult_le_compat_l; lra).
  destruct (@mul_err L x c Hx Fc ltac:(lra)) as [Fd Ed]. split; [exact Fd|]. split; [reflexivity|]. split.
  - replace (val (x *~ c) - s * r) with ((val (x *~ c) - val x * val c) + (val x - s) * r) by (rewrite Vc; ring).
    eapply Rle_trans; [apply Rabs_triang|]. rewrite (Rabs_mult (val x - s)), (Rabs_pos_eq r) by exact Hr.
    assert (Rabs (val x - s) * r <= e * r) by (apply Rmult_le_compat_r; lra). assert (u * Rabs (val x * val c) <= u * (r * (M + e))) by (apply Rmult_le_compat_l; lra). lra.
  - rewrite Rabs_mult, (Rabs_pos_eq r), Rmult_comm by exact Hr. apply Rmult_le_compat_l; lra.
Qed.

(** ** Exponential moving averages *)
Lemma ema_xr p n (g : nat -> @F XR) (h : nat -> R) : (1 <= p)%Z -> (forall j, (j < n)%nat -> g j = Fin (h j)) ->
  forall i, (i < n)%nat -> emaF (N := XR) p g i = Fin (ema (2 / IZR (p + 1)) h i).
Proof.
  intros Hp Hg. assert (P : 0 < IZR (p + 1)) by (apply (IZR_lt 0); lia). induction i as [|i IH]; intros Hi; cbn [emaF ema]; [now apply Hg|].
  rewrite IH, Hg by lia. cbn. destruct (Reqb_spec (IZR (p + 1)) 0) as [E|E]; [lra|]. apply (f_equal Fin). rewrite minus_IZR, plus_IZR in *. field. lra.
Qed.
Lemma ema_diff a g h e i : 0 <= a <= 1 -> (forall j, (j <= i)%nat -> Rabs (g j - h j) <= e) -> Rabs (ema a g i - ema a h i) <= e.
Proof.
  intros Ha. induction i as [|i IH]; intros Hd; cbn [ema]; [now apply Hd|]. pose proof (Hd (S i) (Nat.le_refl _)) as H1.
  assert (H2 : Rabs (ema a g i - ema a h i) <= e) by (apply IH; intros j Hj; apply Hd; lia).
  replace (a * g (S i) + (1 - a) * ema a g i - (a * h (S i) + (1 - a) * ema a h i)) with (a * (g (S i) - h (S i)) + (1 - a) * (ema a g i - ema a h i)) by ring.
  eapply Rle_trans; [apply Rabs_triang|]. rewrite !Rabs_mult, (Rabs_pos_eq a), (Rabs_pos_eq (1 - a)) by lra. nra.
Qed.
Lemma close_ema p n M e (f : nat -> @F N) (g : nat -> @F XR) : (1 <= p)%Z -> (p + 1 <= 1125899906842624)%Z -> 8 * IZR (p + 1) * (M + e) + 1 <= big ->
  (forall j, (j < n)%nat -> close M e (f j) (g j)) -> forall i, (i < n)%nat ->
  close M (e + IZR (p + 1) * ((M + e) * (4 * u) + tiny)) (emaF p f i) (emaF p g i).
Proof.
  intros Hp Hq Hb Hc i Hi. set (h := fun j => match g j with Fin r => r | _ => 0 end).
  assert (Hg : forall j, (j < n)%nat -> g j = Fin (h j)) by (intros j Hj; destruct (Hc j Hj) as (s & _ & E & _); unfold h; now rewrite E).
  assert (Ha : 0 <= 2 / IZR (p + 1) <= 1).
  { assert (2 <= IZR (p + 1)) by (apply (IZR_le 2); lia). split; [apply Rmult_le_pos; [lra|left; apply Rinv_0_lt_compat; lra]|]. apply Rmult_le_reg_r with (IZR (p + 1)); [lra|]. unfold Rdiv. rewrite Rmult_assoc, Rinv_l by lra. lra. }
  pose proof (close_e (Hc i Hi)) as Pe. pose proof (close_M (Hc i Hi)) as PM.
  exists (ema (2 / IZR (p + 1)) h i).
  destruct (@ema_err L p n f (M + e) Hp Hq ltac:(lra)) with (i := i) as [F1 E1]; [intros j Hj; split; [now destruct (Hc j Hj) as (s & ? & _)|exact (close_abs (Hc j Hj))]|exact Hb|exact Hi|].
  split; [exact F1|]. split; [exact (@ema_xr p n g h Hp Hg i Hi)|]. split.
  - replace (val (emaF p f i) - ema (2 / IZR (p + 1)) h i) with ((val (emaF p f i) - ema (2 / IZR (p + 1)) (fun j => val (f j)) i) + (ema (2 / IZR (p + 1)) (fun j => val (f j)) i - ema (2 / IZR (p + 1)) h i)) by ring.
    eapply Rle_trans; [apply Rabs_triang|]. assert (Rabs (ema (2 / IZR (p + 1)) (fun j => val (f j)) i - ema (2 / IZR (p + 1)) h i) <= e); [|lra].
    apply ema_diff; [exact Ha|]. intros j Hj. destruct (Hc j ltac:(lia)) as (s & _ & E & H & _). rewrite (Hg j) in E by lia. injection E as E. rewrite E. exact H.
  - apply ema_abs; [exact Ha|]. intros j Hj. destruct (Hc j ltac:(lia)) as (s & _ & E & _ & H). rewrite (Hg j) in E by lia. injection E as E. rewrite E. exact H.
Qed.

Lemma rnd_half : rnd (/ 2) = / 2.
Proof.
  apply round_generic; [apply valid_rnd_N|]. change (/ 2) with (bpow radix2 (-1)). apply (@generic_format_bpow radix2 (SpecFloat.fexp 53 1024)). unfold SpecFloat.fexp, SpecFloat.emin. lia.
Qed.
Lemma half_huge : Rabs (/ 2) < huge.
Proof. rewrite Rabs_pos_eq by lra. change (/ 2) with (bpow radix2 (-1)). apply bpow_lt. lia. Qed.

(** ** Magnitudes *)
Lemma grain_u M : grain M = M * (4 * u) + tiny.
Proof. unfold grain. rewrite <- least_tiny. unfold least, u. f_equal. field. Qed.
Lemma tiny_1 : 0 < tiny <= / 2 ^ 100.
Proof.
  split; [apply tiny_pos|]. rewrite <- least_tiny. unfold least. apply Rinv_le_contravar; [apply pow_lt; lra|]. apply Rle_pow; [lra|]. apply Nat.leb_le. reflexivity.
Qed.
Lemma big_split : exists B, 1 <= B /\ B = 2 ^ 960 /\ big = 1099511627776 * B.
Proof. exists (2 ^ 960). split; [apply pow_R1_Rle; lra|]. split; [reflexivity|]. rewrite big_pow. replace 1000%nat with (40 + 960)%nat by reflexivity. rewrite pow_add. f_equal. cbn. lra. Qed.
Lemma tiny_2 : tiny <= / 1267650600228229401496703205376.
Proof. destruct tiny_1 as [_ H]. replace (2 ^ 100) with 1267650600228229401496703205376 in H by (cbn; lra). exact H. Qed.
(** one number for all averages of prices: they are at most 2 M + 1 and the periods below 2^32 *)
Lemma ema_room p M e : (1 <= p < 2 ^ 32)%Z -> 0 <= M <= 2 ^ 960 -> 0 <= e <= 3 * M + 2 -> (p + 1 <= 1125899906842624)%Z /\ 8 * IZR (p + 1) * (M + e) + 1 <= big.
Proof.
  intros Hp HM He. split; [lia|]. destruct big_split as (B & H1 & E & ->). rewrite <- E in HM. assert (Q : 0 <= IZR (p + 1) <= 4294967296) by (split; apply IZR_le; lia).
  assert (IZR (p + 1) * (M + e) <= 4294967296 * (4 * B + 2)) by (apply Rmult_le_compat; lra). lra.
Qed.
Lemma period_grain p M : (1 <= p < 2 ^ 32)%Z -> 0 <= M -> 0 < grain M /\ IZR (p + 1) * grain M <= M / 100 + / 1000 /\ 0 <= u * (IZR (p + 1) * grain M) <= grain M / 1000.
Proof.
  intros Hp HM. rewrite grain_u. pose proof tiny_2 as T. destruct tiny_1 as [T0 _]. assert (Q : 2 <= IZR (p + 1) <= 4294967296) by (split; apply IZR_le; lia). pose proof u_pos as Pu.
  set (w := M * (4 * u) + tiny). assert (W : 0 < w) by (unfold w; nra). split; [exact W|]. split.
  - apply Rle_trans with (4294967296 * w); [apply Rmult_le_compat_r; lra|]. unfold w, u. lra.
  - split; [apply Rmult_le_pos; [lra|apply Rmult_le_pos; lra]|]. rewrite <- Rmult_assoc. replace (w / 1000) with (/ 1000 * w) by lra. apply Rmult_le_compat_r; [lra|]. unfold u. lra.
Qed.
End Near.
