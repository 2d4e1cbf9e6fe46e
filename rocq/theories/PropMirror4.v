(** * PropMirror4: property C98, continued: what is not symmetric. *)
From Coq Require Import Reals Lra ZArith Lia Bool List PeanoNat Classical_Prop.
From Verif Require Import Base Num XReal Order OrderMore SpecNum Containers Ta TaTools TaAvg TaRange TaStat SpecTa Sides Klines RSum XrMore
  IndBase IndTrend IndChannel IndOsc IndVolume IndAll IndTools IndForms IndForms2 IndForms3 IndForms4 IndForms5 IndFormsSpec IndBounds IndBounds2 IndExact TaDev TaReg SpecInd SpecInd2 SpecBar SpecMemory SpecMirror
  PropInd1 PropInd8 PropMemory PropMemory2 ShiftTools MirrorTools PropMirror PropMirror2 PropMirror3.
Import ListNotations.
Set Implicit Arguments.
Open Scope Z_scope.
Local Notation C kl := (fun i => cClose (cn kl i)).
Local Notation kline := (list (Candle (N := XR))).

(** ** True range: a gap down is not counted, the same gap up is *)
Lemma mir_at c xs : map (mirrored c) (map at_price xs) = map (fun x => mirrored c (at_price x)) xs.
Proof. apply map_map. Qed.
Theorem C98_Atr_refuted p : exists (c : R) (kl : kline) r r', real_candles kl /\ rows_of I_Atr p kl = Ok r /\ rows_of I_Atr p (map (mirrored c) kl) = Ok r' /\
  nth_error (column (fun v => aTR v) r) 1 = Some (Fin 0 : @F XR) /\ nth_error (column (fun v => aTR v) r') 1 = Some (Fin 2 : @F XR).
Proof.
  exists 20%R, (map at_price [10; 8]%R). eexists _, _. split; [apply at_price_real|]. split; [apply Atr_ind_T|]. split; [apply Atr_ind_T|].
  unfold column. rewrite !tabmap. cbn [rVal]. rewrite !nth_error_tab by (rewrite ?map_length; cbn; lia). unfold atrG. cbn [aTR]. unfold trF, cn. cbn [map nth at_price mirrored cHigh cLow cClose].
  split; f_equal; cbn [fsub XR xsub xadd xneg]; rewrite !xr_max; f_equal; unfold Rmax; repeat destruct (Rle_dec _ _); lra.
Qed.
(** so the Keltner bands are not symmetric either *)
Lemma divZ (x : R) k : k <> 0 -> (Fin x : @F XR) /~ ofZ k = (Fin (x / IZR k) : @F XR).
Proof. intros Hk. assert (IZR k <> 0)%R by (now apply not_0_IZR). cbn. now destruct (Reqb_spec (IZR k) 0). Qed.
Lemma rma1 (f : nat -> @F XR) y : f 1%nat = Fin y -> rmaF 1 2 f 1 = Fin y.
Proof. intros E1. unfold rmaF. cbn [rmaS]. change (Z.of_nat 1 <? 1) with false. cbn iota. cbn [snd]. change (nth 1 (tab 2 f) fzero) with (f 1%nat). rewrite E1. change ((Fin (0 * 0 + y) : @F XR) /~ ofZ 1 = Fin y). rewrite divZ by lia. f_equal. lra. Qed.
Theorem C98_Keltner_bands_refuted : ~ mirrors I_Keltner 1 (fun v => bUpper v) (fun v => bLower v) (fun c => c) 2.
Proof.
  intros HM. destruct (HM 20%R (map at_price [8; 10]%R) (at_price_real _) ltac:(cbn; lia)) as (r & r' & E & E' & _ & Q).
  rewrite Keltner_T in E, E'. injection E as <-. injection E' as <-.
  apply (f_equal (fun l => nth_error l 0)) in Q. rewrite nth_error_map, !nth_error_skipn in Q. unfold column in Q. rewrite !tabmap in Q. cbn [rVal] in Q. rewrite !nth_error_tab in Q by (rewrite ?map_length; cbn; lia).
  cbn [option_map Nat.sub Nat.add] in Q. injection Q as Q. revert Q. unfold keltF. cbn [bUpper bLower]. cbn zeta. cbn [length map].
  set (k' := [mirrored 20 (at_price 8); mirrored 20 (at_price 10)]). set (k := [at_price 8; at_price 10]).
  assert (T1 : trF k 1 = Fin 2). { unfold k, trF, cn. cbn [map nth at_price cHigh cLow cClose]. cbn [fsub XR xsub xadd xneg]; rewrite !xr_max; f_equal; unfold Rmax; repeat destruct (Rle_dec _ _); lra. }
  assert (T2 : trF k' 1 = Fin 0). { unfold k', trF, cn. cbn [map nth at_price mirrored cHigh cLow cClose]. cbn [fsub XR xsub xadd xneg]; rewrite !xr_max; f_equal; unfold Rmax; repeat destruct (Rle_dec _ _); lra. }
  rewrite (rma1 (trF k) T1), (rma1 (trF k') T2). destruct (Reqb_spec 2 0); [lra|]. cbn. intros Q. injection Q as Q. lra.
Qed.
(** ** Bollinger bands never report Sell after the first bar, so no chart's Buy has a counterpart *)
Theorem C98_Boll_signals_refuted : ~ opposite_signals I_Boll (mkBollP 4 2) 1.
Proof.
  intros HO. set (kl := map at_price [10; 8; 12]%R). destruct (HO 20%R kl (at_price_real _) ltac:(cbn; lia)) as (s & s' & E & E' & Ls & Q).
  pose proof (@Boll_T XR (mkBollP 4 2) kl ltac:(cbn; lia)) as R. pose proof (@Boll_T XR (mkBollP 4 2) (map (mirrored 20) kl) ltac:(cbn; lia)) as R'. cbn [blN] in R, R'. change (Z.to_nat 4) with 4%nat in R, R'.
  pose proof (C64_Boll (N := XR) (mkBollP 4 2)) as FB. unfold follows in FB.
  assert (Ls' : length s' = 3%nat). { eapply C40_sides in E'; [exact E'|right; unfold make_style; cbn [In]; tauto|let H := fresh in intros H; discriminate H]. }
  assert (B : nth_error s 2 = Some Buy).
  { destruct (nth_error s 2) as [d|] eqn:Ed; [|apply nth_error_None in Ed; rewrite Ls in Ed; cbn in Ed; lia].
    assert (S : forall i m, (i < 3)%nat -> mean (window (tab 3 (fun j => nth j [10; 8; 12]%R 0%R)) i 4) = m -> smaF 4 (C kl) i = Fin m).
    { intros i m Hi <-. apply (@smaF_exact 4 (C kl) (fun j => nth j [10; 8; 12]%R 0%R) 3 i); [lia|exact Hi|]. intros j Hj. unfold kl, cn. destruct j as [|[|[|j]]]; [reflexivity..|lia]. }
    pose proof (FB kl _ s R E 2%nat (at_price 12) (at_price 8) _ _ d ltac:(lia) ltac:(lia) eq_refl eq_refl eq_refl eq_refl Ed) as (A & _). f_equal. apply A.
    cbn [rVal]. unfold bollF. cbn [blUpper]. unfold bollMD. change (2 <? 4 - 1)%nat with true. change (pred 2) with 1%nat. change (1 <? 4 - 1)%nat with true. cbn iota.
    rewrite (S 2%nat 10%R), (S 1%nat 9%R); [|lia|unfold mean, window, Rsum; cbn; lra|lia|unfold mean, window, Rsum; cbn; lra].
    cbn. split; [destruct (Rltb_spec (10 + 0) 12); [reflexivity|lra]|destruct (Rltb_spec 8 (9 + 0)); [reflexivity|lra]]. }
  assert (B' : nth_error s' 2 = Some Sell).
  { apply (f_equal (fun l => nth_error l 1)) in Q. rewrite nth_error_map, !nth_error_skipn in Q. cbn [Nat.add] in Q. rewrite B in Q. exact Q. }
  pose proof (FB _ _ s' R' E' 2%nat (mirrored 20 (at_price 12)) (mirrored 20 (at_price 8)) _ _ Sell ltac:(lia) ltac:(lia) eq_refl eq_refl eq_refl eq_refl B') as (A1 & A2 & A3).
  match type of A1 with ?P -> _ => destruct (classic P) as [HP|HP] end; [specialize (A1 HP); discriminate A1|].
  assert (NS : ~ ((cClose (mirrored 20 (at_price 8)) <~ cClose (mirrored 20 (at_price 8))) = true)) by (intros H; exact (xlt_excl _ _ H H)).
  specialize (A3 HP (fun H => NS (proj2 H))). discriminate A3.
Qed.
(** ** RSI: both of its thresholds are crossed downwards, so a Buy has no counterpart *)
Lemma rsi_out_is g l : (1 <= g + l)%R -> rsi_out (N := XR) (Fin g) (Fin l) = Fin (100 * (g / (g + l))).
Proof.
  intros H. unfold rsi_out. cbn zeta. change ((Fin g : @F XR) +~ Fin l) with (Fin (g + l) : @F XR). cbn.
  destruct (Rltb_spec (-1 / 100000000000000) (g + l)), (Rltb_spec (g + l) (1 / 100000000000000)); try lra. cbn. destruct (Reqb_spec (g + l) 0); [lra|reflexivity].
Qed.
Lemma rsi_up d g l : (0 <= d)%R -> rsi_add (N := XR) (Fin d) (Fin g) (Fin l) = (Fin (g + d), Fin l).
Proof. intros H. unfold rsi_add. cbn. destruct (Rltb_spec d 0); [lra|reflexivity]. Qed.
Lemma rsi_dn d g l : (d < 0)%R -> rsi_add (N := XR) (Fin d) (Fin g) (Fin l) = (Fin g, Fin (l - d)).
Proof. intros H. unfold rsi_add. cbn. destruct (Rltb_spec d 0); [reflexivity|lra]. Qed.
Theorem C98_Rsi_signals_refuted : exists (c : R) (kl : kline) s s', real_candles kl /\ sides_of I_Rsi 2 kl = Ok s /\ sides_of I_Rsi 2 (map (mirrored c) kl) = Ok s' /\
  nth_error s 3 = Some Buy /\ nth_error s' 3 = Some Hold.
Proof.
  set (kl := map at_price [10; 11; 10; 5]%R). pose proof (at_price_real [10; 11; 10; 5]%R) as Hr. fold kl in Hr. set (kl' := map (mirrored 20) kl).
  pose proof (@Rsi_T XR 2 kl ltac:(lia) ltac:(cbn; lia)) as R. pose proof (@Rsi_T XR 2 kl' ltac:(lia) ltac:(cbn; lia)) as R'. change (Z.of_nat 2) with 2 in R, R'.
  assert (G : forall k r, rows_of I_Rsi 2 k = Ok r -> length r = length k -> exists s, sides_of I_Rsi 2 k = Ok s /\ length s = length k)
    by (intros k r Er Lr; apply (@both_sides I_Rsi 2 (rsi_sides (N := XR)) k r); [in_all|no_proj|reflexivity|exact Er|exact Lr]).
  destruct (G kl _ R (tab_length _ _)) as (s & E & Ls). destruct (G kl' _ R' (tab_length _ _)) as (s' & E' & Ls'). change (length kl) with 4%nat in Ls. change (length kl') with 4%nat in Ls'.
  exists 20%R, kl, s, s'. split; [exact Hr|]. split; [exact E|]. split; [exact E'|].
  assert (A2 : rsiA (C kl) 2 = (Fin 1, Fin 1)).
  { cbn [rsiA fst snd]. change (cClose (cn kl 1) -~ cClose (cn kl 0)) with (Fin (11 + - 10) : @F XR). change (fzero (N := XR)) with (Fin 0). rewrite rsi_up by lra. cbn [fst snd]. change (cClose (cn kl 2) -~ cClose (cn kl 1)) with (Fin (10 + - 11) : @F XR). rewrite rsi_dn by lra. f_equal; f_equal; lra. }
  assert (W0 : rsiW 2 (C kl) 0 = (Fin (1 / 2), Fin (1 / 2))) by (cbn [rsiW]; rewrite A2; apply (@rsi_avg_fin 2 1 1); lia).
  assert (W1 : rsiW 2 (C kl) 1 = (Fin (1 / 4), Fin (11 / 4))).
  { cbn [rsiW] in W0 |- *. rewrite W0. cbn [fst snd]. change (cClose (cn kl (2 + 1)) -~ cClose (cn kl (2 + 0))) with (Fin (5 + - 10) : @F XR). change ((Fin (1 / 2) : @F XR) *~ ofZ (Z.of_nat 2 - 1)) with (Fin (1 / 2 * 1) : @F XR).
    rewrite rsi_dn by lra. rewrite (@rsi_avg_fin 2) by lia. change (IZR (Z.of_nat 2)) with 2%R. f_equal; f_equal; lra. }
  assert (V2 : rsiF 2 (C kl) 2 = Fin 50). { unfold rsiF. cbn [Nat.ltb Nat.leb Nat.sub]. rewrite W0. cbn [fst snd]. rewrite rsi_out_is by lra. f_equal. lra. }
  assert (V3 : rsiF 2 (C kl) 3 = Fin (25 / 3)). { unfold rsiF. cbn [Nat.ltb Nat.leb Nat.sub]. rewrite W1. cbn [fst snd]. rewrite rsi_out_is by lra. f_equal. field. }
  assert (V2' : rsiF 2 (C kl') 2 = Fin 50). { destruct (@rsi_turn 2 20 kl ltac:(lia) Hr 2%nat ltac:(cbn; lia)) as [Q|[_ Q]]; [fold kl' in Q; rewrite Q, V2; unfold flip; cbn; f_equal; lra|rewrite V2 in Q; injection Q as Q; lra]. }
  assert (V3' : rsiF 2 (C kl') 3 = Fin (275 / 3)). { destruct (@rsi_turn 2 20 kl ltac:(lia) Hr 3%nat ltac:(cbn; lia)) as [Q|[_ Q]]; [fold kl' in Q; rewrite Q, V3; unfold flip; cbn; f_equal; lra|rewrite V3 in Q; injection Q as Q; lra]. }
  pose proof (C64_Rsi (N := XR) 2) as FR. unfold follows in FR.
  destruct (nth_error s 3) as [d|] eqn:Ed; [|apply nth_error_None in Ed; lia]. destruct (nth_error s' 3) as [d'|] eqn:Ed'; [|apply nth_error_None in Ed'; lia].
  pose proof (FR kl _ s R E 3%nat (at_price 5) (at_price 10) _ _ d ltac:(lia) ltac:(lia) eq_refl eq_refl eq_refl eq_refl Ed) as (A & _).
  pose proof (FR kl' _ s' R' E' 3%nat (mirrored 20 (at_price 5)) (mirrored 20 (at_price 10)) _ _ d' ltac:(lia) ltac:(lia) eq_refl eq_refl eq_refl eq_refl Ed') as (_ & _ & A').
  cbn [rVal pred] in A, A'. change (pred 3) with 2%nat in A, A'. rewrite V2, V3 in A. rewrite V2', V3' in A'.
  assert (T : forall x n, (x < IZR n)%R -> ((Fin x : @F XR) <~ ofZ n) = true) by (intros x n Hx; cbn; destruct (Rltb_spec x (IZR n)); [reflexivity|lra]).
  assert (T' : forall x n, (IZR n < x)%R -> ((ofZ n : @F XR) <~ Fin x) = true) by (intros x n Hx; cbn; destruct (Rltb_spec (IZR n) x); [reflexivity|lra]).
  assert (U : forall x n, (IZR n <= x)%R -> ((Fin x : @F XR) <~ ofZ n) <> true) by (intros x n Hx; cbn; destruct (Rltb_spec x (IZR n)); [lra|discriminate]).
  split; f_equal; [apply A; split; [apply T; lra|apply T'; lra]|].
  apply A'; intros [Q _]; refine (@U _ _ _ Q); lra.
Qed.

(** the hypotheses are met: a chart that moves, and the same chart mirrored *)
Example C98_hyp : real_candles (map at_price [10; 12; 11]%R) /\ map (fun k => cClose (mirrored 20 k)) (map at_price [10; 12; 11]%R) = [Fin 10; Fin 8; Fin 9] /\
  moves_by 1 2 1 (map at_price [10; 12; 11]%R).
Proof.
  split; [apply at_price_real|]. split; [cbn; repeat f_equal; lra|].
  intros i Hi. cbn in Hi. assert (H : i = 1%nat \/ i = 2%nat) by lia. destruct H as [-> | ->].
  - exists (at_price 10), (at_price 12), 10%R, 12%R. cbn. repeat split; auto; lra.
  - exists (at_price 11), (at_price 12), 11%R, 12%R. cbn. repeat split; auto; lra.
Qed.
Print Assumptions C98_Atr_refuted.
Print Assumptions C98_Keltner_bands_refuted.
Print Assumptions C98_Boll_signals_refuted.
Print Assumptions C98_Rsi_signals_refuted.
