(** * PropFlat3: property C99, continued: oscillators whose range is empty on a flat market, and where the library does react to nothing. *)
From Coq Require Import Reals Lra ZArith Lia Bool List PeanoNat.
From Verif Require Import Base Num XReal Order OrderMore FloatLaws FloatOrder FloatBounds SpecNum B64 Lits Containers Ta TaTools TaAvg TaRange TaStat TaOrd SpecTa Sides Klines RSum XrMore
  IndBase IndTrend IndChannel IndOsc IndVolume IndAll IndTools IndForms IndForms2 IndForms3 IndForms4 IndForms5 IndFormsSpec IndMachines IndBounds IndBounds2 IndExact TaDev TaReg SpecInd SpecInd2 SpecBar SpecMemory SpecFlat
  IndLife CrashSides PropInd1 PropInd2 PropInd3 PropInd5 PropInd6 PropInd7 PropInd8 PropInd9 PropInd11 PropInd12 PropBands PropMemory ShiftTools PropMirror3 Crash CrashInd PropFlat PropFlat2.
Import ListNotations.
Set Implicit Arguments.
Open Scope Z_scope.
Local Notation H kl := (fun i => cHigh (cn kl i)).
Local Notation L kl := (fun i => cLow (cn kl i)).
Local Notation C kl := (fun i => cClose (cn kl i)).
Local Notation rows kl g := (Ok (tab (length kl) (fun i => mkRow (tm kl i) (g i)))).
Local Notation kline := (list (Candle (N := XR))).
Local Notation the_price := (fun c : R => c).

(** ** KDJ: K and D climb to 100 together, K never below D, so there is no cross *)
Lemma fl_lowF n f c s k : still n f c -> (s + k < n)%nat -> lowF (N := XR) f s k = Fin c.
Proof. intros Hf. induction k as [|k IH]; intros Hs; cbn [lowF]; [apply Hf; lia|]. rewrite IH, (Hf (s + S k)%nat) by lia. now destruct (_ <~ _). Qed.
Lemma fl_highF n f c s k : still n f c -> (s + k < n)%nat -> highF (N := XR) f s k = Fin c.
Proof. intros Hf. induction k as [|k IH]; intros Hs; cbn [highF]; [apply Hf; lia|]. rewrite IH, (Hf (s + S k)%nat) by lia. now destruct (_ <~ _). Qed.
Lemma fl_kdj (p : nat) c kl : (2 <= p)%nat -> flat_market c kl -> forall i, (i < length kl)%nat -> exists r k d, kdjF (N := XR) p (L kl) (H kl) (C kl) i = (r, Fin k, Fin d) /\ (50 <= d <= k)%R /\ (k <= 100)%R.
Proof.
  intros Hp Hf. induction i as [|i IH]; intros Hi; [exists (ofZ 0), 50%R, 50%R; repeat split; cbn; lra|]. cbn [kdjF]. destruct (Nat.ltb_spec (S i) (p - 1)); [exists (ofZ 0), 50%R, 50%R; repeat split; cbn; lra|].
  destruct (IH ltac:(lia)) as (r & k & d & -> & Hd & Hk). unfold rsvF. rewrite (@fl_lowF _ _ c _ _ (fl_low Hf)), (@fl_highF _ _ c _ _ (fl_high Hf)) by lia. rewrite xr_sub.
  change (lit 1 1000000) with (Fin (1 / 1000000) : @F XR). change (lit 2 3) with (Fin (2 / 3) : @F XR). change (lit 1 3) with (Fin (1 / 3) : @F XR). rewrite xr_lt. destruct (Rltb_spec (c - c) (1 / 1000000)); [|lra].
  rewrite xr_ofZ, !xr_mul, !xr_add, !xr_mul, !xr_add. eexists _, _, _. split; [reflexivity|]. lra.
Qed.
Theorem C99_Kdj_signals (p : nat) : (2 <= p)%nat -> stays_out I_Kdj (Z.of_nat p) 0 1.
Proof.
  intros Hp. apply (@stays I_Kdj (Z.of_nat p) _ _ 1 _ _ ltac:(in_all) ltac:(no_proj) eq_refl (@C64_Kdj XR (Z.of_nat p))). intros c kl Hc Hf _.
  exists (tab (length kl) (fun i => mkRow (tm kl i) (kdjG p kl i))). split; [now apply Kdj_T|]. split; [apply tab_length|]. intros i v w k k' H0i Hv Hw Hk Hk'. cbn beta.
  apply tab_some in Hv as [Hi ->]. apply tab_some in Hw as [Hj ->]. cbn [rVal]. unfold kdjG. destruct (fl_kdj Hp Hf Hi) as (r1 & k1 & d1 & -> & D1 & K1), (fl_kdj Hp Hf Hj) as (r2 & k2 & d2 & -> & D2 & K2). cbn [kK kD kJ].
  rewrite !xr_lt. split; intros (A & _ & B & _) || intros (A & _); [destruct (Rltb_spec k2 d2); [lra|discriminate B]|destruct (Rltb_spec k1 d1); [lra|discriminate A]].
Qed.
(** the values themselves do move: K leaves 50 and tends to 100, and never rests *)
Definition quiet (c v : R) (n : nat) : kline := repeat (mkCandle (N := XR) (Fin 0) 0 (Fin c) (Fin c) (Fin c) (Fin c) (Fin v) (Fin 0) false 60) n.
Lemma quiet_flat c v n : (0 <= v)%R -> flat_market c (quiet c v n).
Proof. intros Hv. apply Forall_forall. intros k Hk. apply repeat_spec in Hk. subst. cbn. repeat split; try reflexivity. exists v. now split. Qed.
Lemma kdj_climbs c kl : flat_market c kl -> forall i, (i < length kl)%nat -> exists r d, kdjF (N := XR) 2 (L kl) (H kl) (C kl) i = (r, Fin (100 - 50 * (2 / 3) ^ i), d).
Proof.
  intros Hf. induction i as [|i IH]; intros Hi; [exists (ofZ 0), (ofZ 50); cbn; do 2 f_equal; apply (f_equal Fin); lra|]. cbn [kdjF]. destruct (Nat.ltb_spec (S i) (2 - 1)); [lia|].
  destruct (IH ltac:(lia)) as (r & d & ->). unfold rsvF. rewrite (@fl_lowF _ _ c _ _ (fl_low Hf)), (@fl_highF _ _ c _ _ (fl_high Hf)) by lia. rewrite xr_sub.
  change (lit 1 1000000) with (Fin (1 / 1000000) : @F XR). change (lit 2 3) with (Fin (2 / 3) : @F XR). change (lit 1 3) with (Fin (1 / 3) : @F XR). rewrite xr_lt. destruct (Rltb_spec (c - c) (1 / 1000000)); [|lra].
  rewrite xr_ofZ, !xr_mul, !xr_add. eexists _, _. f_equal. f_equal. apply (f_equal Fin). cbn [pow]. lra.
Qed.
Theorem C99_Kdj_refuted : ~ (exists x need k, rests_at I_Kdj 2 (fun v => kK v) x need k).
Proof.
  intros (x & need & k & M). set (kl := quiet 1 0 (need + k + 2)). assert (Lk : length kl = (need + k + 2)%nat) by apply repeat_length. assert (Hf : flat_market 1 kl) by (apply quiet_flat; lra).
  destruct (M 1%R kl ltac:(lra) Hf ltac:(lia)) as (r & E & _ & Q). change 2 with (Z.of_nat 2) in E. rewrite Kdj_T in E by lia. injection E as <-.
  assert (V : forall j, (k + j < length kl)%nat -> kK (kdjG 2 kl (k + j)%nat) = (Fin (x 1%R) : @F XR)).
  { intros j Hj. apply (f_equal (fun l => nth_error l j)) in Q. rewrite nth_error_skipn in Q. unfold column in Q. rewrite tabmap, nth_error_tab in Q by exact Hj. rewrite nth_error_repeat in Q by lia. now injection Q. }
  pose proof (V 0%nat ltac:(lia)) as V0. pose proof (V 1%nat ltac:(lia)) as V1. unfold kdjG in V0, V1. destruct (kdj_climbs Hf (i := k + 0) ltac:(lia)) as (r0 & d0 & E0). destruct (kdj_climbs Hf (i := k + 1) ltac:(lia)) as (r1 & d1 & E1).
  rewrite E0 in V0. rewrite E1 in V1. cbn [kK] in V0, V1. injection V0 as V0. injection V1 as V1. rewrite Nat.add_0_r in V0. replace (k + 1)%nat with (S k) in V1 by lia. cbn [pow] in V1. pose proof (pow_lt (2 / 3) k ltac:(lra)). lra.
Qed.

(** ** Williams %R is 0/0 on every row, so it crosses no level *)
Lemma fl_wil c kl p : 1 <= p -> flat_market c kl -> rows_of (N := XR) I_Williams p kl = rows kl (fun _ => (NaN : @F XR)).
Proof.
  intros Hp Hf. destruct (@Williams_T XR XR_ord p kl Hp (@fl_nonan c kl (fun c => cHigh c) (fl_high Hf)) (@fl_nonan c kl (fun c => cLow c) (fl_low Hf))) as (h & l & Hh & Hl & ->).
  apply (f_equal Ok). apply tab_ext. intros i Hi. apply (f_equal (mkRow (tm kl i))). unfold wilF. rewrite (fl_tops (q := fun c => cHigh c) (fl_high Hf) Hh Hi), (fl_bottoms (q := fun c => cLow c) (fl_low Hf) Hl Hi), (fl_close Hf Hi).
  rewrite !xr_sub. replace (c - c)%R with 0%R by lra. cbn. rewrite Reqb_00. unfold inf_sgn. now rewrite Rltb_00.
Qed.
Theorem C99_Williams_refuted p c kl : 1 <= p -> flat_market c kl -> exists r, rows_of (N := XR) I_Williams p kl = Ok r /\ column (fun v => v) r = repeat (NaN : @F XR) (length kl).
Proof. intros Hp Hf. rewrite (fl_wil Hp Hf). eexists. split; [reflexivity|]. unfold column. rewrite tabmap. exact (tab_const (length kl) (NaN : @F XR)). Qed.
Theorem C99_Williams_signals p : 1 <= p -> stays_out I_Williams p 0 1.
Proof.
  intros Hp. apply (@stays I_Williams p _ _ 1 _ _ ltac:(in_all) ltac:(no_proj) eq_refl (@C64_WilliamsR XR p)). intros c kl Hc Hf _. eexists. split; [exact (fl_wil Hp Hf)|]. split; [apply tab_length|].
  intros i v w k k' H0i Hv Hw Hk Hk'. apply tab_some in Hv as [Hi ->]. cbn [rVal]. split; nope.
Qed.

Lemma col_some A (f : A -> @F XR) (r : list (row A)) i y : nth_error (column f r) i = Some y -> exists v, nth_error r i = Some v /\ y = f (rVal v).
Proof. unfold column. rewrite nth_error_map. destruct (nth_error r i) as [v|]; [|discriminate]. intros E. injection E as <-. eauto. Qed.
(** ** the volume weighted average needs something traded *)
Theorem C99_Vwma p c kl : 1 <= p -> flat_market c kl -> traded kl -> exists r, rows_of (N := XR) I_Vwma p kl = Ok r /\ column (fun v => v) r = repeat (Fin c : @F XR) (length kl).
Proof.
  intros Hp Hf Ht. assert (B : exists bs, Forall2 is_bar kl bs /\ Forall (fun b => bC b = c /\ (0 < bV b)%R) bs).
  { clear Hp. unfold flat_market, traded in *. induction kl as [|k kl IH]; [exists []; split; constructor|]. inversion Hf as [|? ? F1 F2]; subst. inversion Ht as [|? ? T1 T2]; subst. destruct (IH F2 T2) as (bs & B1 & B2).
    destruct F1 as (H1 & H2 & H3 & H4 & _). destruct T1 as (v & Hv & H5). exists (mkBar c c c c v :: bs). split; constructor; try assumption; [|now split]. unfold is_bar. cbn. auto. }
  destruct B as (bs & B1 & B2). destruct (C58_exact Hp B1) as (r & E & Lr & Q). exists r. split; [exact E|]. pose proof (@all_same (@F XR) (column (fun v : @F XR => v) r) (Fin c) (length kl) 0) as A. rewrite Nat.sub_0_r in A. apply A; [unfold column; now rewrite map_length|].
  intros i y _ Hy. destruct (@col_some (@F XR) _ r i y Hy) as (v & Hv & ->). destruct (Q i v Hv) as [_ K].
  destruct (K c c) as (x & Hx & Bx); [|transitivity (Fin x : @F XR); [exact Hx|]; apply (f_equal Fin); lra]. intros b Hb. apply window_In in Hb. rewrite Forall_forall in B2. destruct (B2 b Hb). split; [assumption|lra].
Qed.

(** ** the reversal signal sells a market in which nothing happens *)
Theorem C99_Reversal_refuted c kl : flat_market c kl -> (13 <= length kl)%nat -> exists r, rows_of (N := XR) I_Reversal tt kl = Ok r /\ nth_error (column (fun v => v) r) 12 = Some Sell.
Proof.
  intros Hf Hn. destruct (@C49_Reversal_partial XR kl) as (r & E & Lr & Q). exists r. split; [exact E|]. destruct (@some_at _ r 12 ltac:(lia)) as (v & Hv). unfold column. rewrite nth_error_map, Hv. cbn [option_map]. apply (f_equal Some).
  destruct (Q 12%nat v Hv) as [_ [_ S]]. apply S. unfold flat_market in Hf. rewrite Forall_forall in Hf.
  assert (G : forall j, (j < length kl)%nat -> exists k, nth_error kl j = Some k /\ cHigh k = (Fin c : @F XR) /\ cClose k = (Fin c : @F XR)).
  { intros j Hj. destruct (@some_at _ kl j Hj) as (k & Hk). exists k. destruct (Hf k (nth_error_In _ _ Hk)) as (_ & A & _ & B & _). auto. }
  split.
  - split; [lia|]. split; [|now left]. intros j H1 H2. destruct (G j ltac:(lia)) as (k & K1 & _ & K2), (G (j - 4)%nat ltac:(lia)) as (k' & K3 & _ & K4). exists k, k'. repeat split; try assumption. rewrite K2, K4, xr_lt. destruct (Rltb_spec c c); [lra|reflexivity].
  - destruct (G 12%nat ltac:(lia)) as (k & K1 & H1 & _), (G 11%nat ltac:(lia)) as (k1 & K2 & H2 & _), (G 10%nat ltac:(lia)) as (k2 & K3 & H3 & _), (G 9%nat ltac:(lia)) as (k3 & K4 & H4 & _).
    exists k, k1, k2, k3. repeat split; try assumption. left. rewrite H1, H3, H4. split; rewrite xr_le; (destruct (Rleb_spec c c); [reflexivity|lra]).
Qed.
(** ** the force index of the first candle is price times volume, as if the price had come from nought *)
Theorem C99_Force_refuted p c v : 0 <= p -> (0 < c)%R -> (0 < v)%R -> flat_market c (quiet c v 1) /\ exists r, rows_of (N := XR) I_Force p (quiet c v 1) = Ok r /\ column (fun x => x) r = [(Fin (c * v) : @F XR)].
Proof.
  intros Hp Hc Hv. split; [apply quiet_flat; lra|]. rewrite Force_T. eexists. split; [reflexivity|]. unfold column. rewrite tabmap. cbn [tab length quiet repeat seq map rVal]. apply (f_equal (fun x => [x])).
  cbn [emaF]. unfold forceF. cbn. apply (f_equal Fin). lra.
Qed.
(** ** in float64 the averages of a constant drift apart by rounding, and TraderXO trades on it *)
Definition at_rest (x : @F EX) (n : nat) : list (Candle (N := EX)) := repeat (mkCandle (N := EX) (fz 0) 0 x x x x (fz 1) (fz 0) false 60) n.
Theorem C99_TraderXO_float_refuted : sides_of I_TraderXO (mkXOP 12 25) (at_rest (lit 49544 100) 3) = Ok [Hold; Buy; Hold].
Proof. vm_compute. reflexivity. Qed.

(** the hypotheses are met by every length and price; computed in float64 at a price it represents: *)
Example C99_hyp : flat_market 100 (quiet 100 5 40) /\ traded (quiet 100 5 40) /\ length (quiet 100 5 40) = 40%nat.
Proof. split; [apply quiet_flat; lra|]. split; [apply Forall_forall; intros k Hk; apply repeat_spec in Hk; subst; exists 5%R; split; [lra|reflexivity]|apply repeat_length]. Qed.
Example C99_hyp_float : let kl := at_rest (fz 64) 6 in
  rmap (column (fun v => v)) (rows_of I_Ema 3 kl) = Ok (repeat (fz 64) 6) /\
  sides_of I_SuperTrend (mkSTP 3 2 true) kl = Ok (Buy :: repeat Hold 5) /\ sides_of I_UTBot (mkUTP 2 3) kl = Ok (Buy :: repeat Hold 5) /\ sides_of I_PPST (mkPPP 1 3 (fz 2)) kl = Ok (Buy :: repeat Hold 5) /\
  sides_of I_Kdj 3 kl = Ok (Buy :: repeat Hold 5).
Proof. vm_compute. repeat split. Qed.

Print Assumptions C99_Kdj_signals.
Print Assumptions C99_Kdj_refuted.
Print Assumptions C99_Williams_refuted.
Print Assumptions C99_Williams_signals.
Print Assumptions C99_Vwma.
Print Assumptions C99_Reversal_refuted.
Print Assumptions C99_Force_refuted.
Print Assumptions C99_TraderXO_float_refuted.
