(** * PropInd8: properties C52 (Bollinger), C55 (money flow index), C56 (Chaikin money flow), C58 (VWMA). *)
From Coq Require Import Reals Lra ZArith Lia Bool List.
From Verif Require Import Base Num XReal Order OrderMore FloatLaws FloatOrder FloatBounds SpecNum B64 Lits Containers Ta TaTools TaAvg TaRange TaStat SpecTa Sides Klines RSum XrMore
  IndBase IndTrend IndChannel IndOsc IndVolume IndTools IndForms IndForms2 IndForms3 IndForms4 IndFormsSpec IndBounds IndBounds2 IndExact SpecInd SpecBar PropInd1 PropInd5 PropInd6 PropInd7.
Import ListNotations.
Set Implicit Arguments.
Open Scope Z_scope.
Local Notation highs := (map (fun c => cHigh c)).
Local Notation lows := (map (fun c => cLow c)).
Local Notation closes := (map (fun c => cClose c)).

Definition bar0 := mkBar 0 0 0 0 0.
Lemma bars_cn kl bs : Forall2 is_bar kl bs -> length kl = length bs /\ forall i, (i < length kl)%nat -> is_bar (cn kl i) (nth i bs bar0).
Proof.
  intros H. split; [induction H; cbn [length]; congruence|]. induction H as [|c b kl bs Hb H IH]; intros i Hi; [cbn in Hi; lia|].
  destruct i as [|i]; [exact Hb|]. apply IH. cbn in Hi. lia.
Qed.
Lemma tab_map A B (f : A -> B) l d : tab (length l) (fun j => f (nth j l d)) = map f l.
Proof. rewrite (tab_of_list (map f l) (f d)), map_length. apply tab_ext. intros k Hk. now rewrite map_nth. Qed.
Lemma total_run (p : nat) (g : nat -> @F XR) (f : bar -> R) bs i : (i < length bs)%nat -> (forall j, (j < length bs)%nat -> g j = Fin (f (nth j bs bar0))) ->
  runF (N := XR) p g (S i) = Fin (total f (window bs i p)).
Proof.
  intros Hi H. rewrite (@runF_exact p g (fun j => f (nth j bs bar0)) (length bs) i Hi H). rewrite tab_map, window_map. reflexivity.
Qed.
Lemma div_clean_exact a b : div_clean (N := XR) (Fin a) (Fin b) = Fin (ratio a b).
Proof.
  unfold div_clean, ratio. cbn. destruct (Reqb_spec b 0) as [->|Hb].
  - destruct (Req_EM_T 0 0); [|contradiction]. unfold inf_sgn. repeat (destruct (Rltb _ _) || destruct (Reqb _ _)); unfold isInf; cbn; repeat destruct (Rltb _ _); reflexivity.
  - destruct (Req_EM_T b 0); [contradiction|]. reflexivity.
Qed.

(** ** C58 *)
(** VWMA is total(close * volume) / total(volume) over the window; with positive volumes it lies between the smallest and the largest close. *)
Theorem C58_exact (p : Z) (kl : list (Candle (N := XR))) (bs : list bar) : 1 <= p -> Forall2 is_bar kl bs ->
  exists rows, rows_of I_Vwma p kl = Ok rows /\ length rows = length kl /\
  forall i r, nth_error rows i = Some r -> let w := window bs i (Z.to_nat p) in
    rVal r = Fin (ratio (total (fun b => bC b * bV b)%R w) (total bV w)) /\
    forall lo hi, (forall b, In b w -> (0 < bV b)%R /\ (lo <= bC b <= hi)%R) -> exists x, rVal r = Fin x /\ (lo <= x <= hi)%R.
Proof.
  intros Hp HB. destruct (bars_cn HB) as [Len HC]. rewrite Vwma_T by lia. eexists. split; [reflexivity|]. split; [apply tab_length|].
  intros i r Er w. apply tab_some in Er as [Hi ->]. cbn [rVal]. unfold vwmaF. rewrite Len in Hi, HC.
  assert (E : rVal (mkRow (tm kl i) (vwmaF (N := XR) (Z.to_nat p) kl i)) = Fin (ratio (total (fun b => bC b * bV b)%R w) (total bV w))).
  { cbn [rVal]. unfold vwmaF. rewrite (@total_run _ _ (fun b => bC b * bV b)%R bs i), (@total_run _ _ bV bs i); auto.
    - apply div_clean_exact.
    - intros j Hj. destruct (HC j Hj) as (_ & _ & _ & _ & ->). reflexivity.
    - intros j Hj. destruct (HC j Hj) as (_ & _ & _ & -> & ->). reflexivity. }
  cbn [rVal] in E. unfold vwmaF in E. split; [exact E|]. intros lo hi Hw. eexists. split; [exact E|].
  assert (Wn : w <> []) by (apply window_not_nil; lia). assert (T : (0 < total bV w)%R) by (apply total_pos; [exact Wn|intros; now apply Hw]).
  rewrite ratio_nz by lra. apply weighted_mean; auto; [intros b Hb; left; now apply Hw|intros b Hb; now apply Hw].
Qed.
Print Assumptions C58_exact.
(** In float64 the running sums keep the rounding errors of bars that left the window:
    closes 1 and 5 with volumes 10^16 and 3, period 1: the second value is 4, not 5. *)
Theorem C58_float_refuted :
  rmap (map (fun r => rVal r ==~ ofZ 4)) (rows_of (N := EX) I_Vwma 1 [kd 1 1 1 1 10000000000000000 60; kd 5 5 5 5 3 120]) = Ok [false; true].
Proof. vm_compute. reflexivity. Qed.
Print Assumptions C58_float_refuted.
Example C58_hyp : rmap (map (fun r => rVal r ==~ ofZ 7)) (rows_of (N := EX) I_Vwma 2 [kd 4 4 4 4 1 60; kd 8 8 8 8 3 120; kd 6 6 6 6 3 180]) = Ok [false; true; true].
Proof. vm_compute. reflexivity. Qed.

(** ** C56 *)
(** the money flow multiplier of a candle *)
Definition multiplier (b : bar) : R := ratio ((bC b - bL b) - (bH b - bC b)) (bH b - bL b).
Lemma multiplier_bounds b : well_formed b -> (-1 <= multiplier b <= 1)%R.
Proof.
  intros (_ & H & _). unfold multiplier, ratio. destruct (Req_EM_T (bH b - bL b) 0); [lra|]. assert (0 < bH b - bL b)%R by lra.
  split; apply Rmult_le_reg_r with (bH b - bL b)%R; try assumption; unfold Rdiv; rewrite Rmult_assoc, Rinv_l; lra.
Qed.
Theorem C56_exact (p : Z) (kl : list (Candle (N := XR))) (bs : list bar) : 1 <= p -> Forall2 is_bar kl bs ->
  exists rows, rows_of I_CMF p kl = Ok rows /\ length rows = length kl /\
  forall i r, nth_error rows i = Some r -> let w := window bs i (Z.to_nat p) in
    rVal r = Fin (ratio (total (fun b => multiplier b * bV b)%R w) (total bV w)) /\
    (Forall well_formed w -> exists x, rVal r = Fin x /\ (-1 <= x <= 1)%R).
Proof.
  intros Hp HB. destruct (bars_cn HB) as [Len HC]. rewrite CMF_T by lia. eexists. split; [reflexivity|]. split; [apply tab_length|].
  intros i r Er w. apply tab_some in Er as [Hi ->]. rewrite Len in Hi, HC.
  assert (E : rVal (mkRow (tm kl i) (cmfF (N := XR) (Z.to_nat p) kl i)) = Fin (ratio (total (fun b => multiplier b * bV b)%R w) (total bV w))).
  { cbn [rVal]. unfold cmfF. rewrite (@total_run _ _ (fun b => multiplier b * bV b)%R bs i), (@total_run _ _ bV bs i); auto.
    - apply div_clean_exact.
    - intros j Hj. destruct (HC j Hj) as (_ & _ & _ & _ & ->). reflexivity.
    - intros j Hj. destruct (HC j Hj) as (_ & E1 & E2 & E3 & E4). unfold cmfM. rewrite E1, E2, E3, E4. rewrite xr_ofZ, !xr_mul, !xr_add, xr_mul, xr_add, div_clean_exact, xr_mul.
      unfold multiplier. do 3 f_equal; lra. }
  split; [exact E|]. intros W. eexists. split; [exact E|]. rewrite Forall_forall in W.
  assert (Wn : w <> []) by (apply window_not_nil; lia). assert (T : (0 <= total bV w)%R) by (apply total_nonneg; intros b Hb; now apply (W b Hb)).
  destruct (Req_dec (total bV w) 0) as [T0|T0]; [rewrite T0, ratio_0; lra|]. rewrite ratio_nz by exact T0.
  apply weighted_mean; auto; [intros b Hb; now apply (W b Hb)|lra|intros b Hb; apply multiplier_bounds; auto].
Qed.
Print Assumptions C56_exact.
(** float64: -1.0000000000000002 on well-formed candles *)
Theorem C56_float_refuted :
  rmap (map (fun r => rVal r <~ ofZ (-1))) (rows_of (N := EX) I_CMF 2 [kd 11 16 9 11 57 60; kd 16 17 16 16 56 120; kd 19 22 19 19 58 180]) = Ok [false; false; true].
Proof. vm_compute. reflexivity. Qed.
Print Assumptions C56_float_refuted.
Example C56_hyp : Forall well_formed [mkBar 11 16 9 11 57; mkBar 16 17 16 16 56] /\
  rmap (map (fun r => (lit (-8) 10 <~ rVal r) && (rVal r <~ lit (-4) 10))) (rows_of (N := EX) I_CMF 2 [kd 11 16 9 11 57 60; kd 16 17 16 16 56 120]) = Ok [true; true].
Proof. split; [|vm_compute; reflexivity]. repeat constructor; cbn; lra. Qed.

(** ** C55 *)
(** the money flow of each bar: typical price times volume, counted negative when it fell;
    the first bar is compared with 0 *)
Definition raw (b : bar) : R := ((bH b + bL b + bC b) / 3 * bV b)%R.
Fixpoint flows (prev : R) (raws : list R) : list R :=
  match raws with
  | [] => []
  | x :: raws => (if Rle_dec prev x then x else - x)%R :: flows x raws
  end.
Definition gains (l : list R) : R := Rsum (map (fun x => Rmax x 0) l).
Definition losses (l : list R) : R := Rsum (map (fun x => Rmax (- x) 0) l).
Lemma flows_nth raws : forall prev j, (j < length raws)%nat ->
  nth j (flows prev raws) 0%R = let x := nth j raws 0%R in let q := match j with O => prev | S k => nth k raws 0%R end in if Rle_dec q x then x else (- x)%R.
Proof.
  induction raws as [|x raws IH]; intros prev j Hj; [cbn in Hj; lia|]. destruct j as [|j]; [reflexivity|]. cbn [flows nth]. rewrite IH by (cbn in Hj; lia).
  destruct j; reflexivity.
Qed.
Lemma flows_length raws : forall prev, length (flows prev raws) = length raws.
Proof. induction raws; intros; cbn; congruence. Qed.
Lemma pow_inv a : a <> 0%R -> @fpow XR (Fin a) (ofZ (-1)) = Fin (/ a).
Proof.
  intros Ha. cbn. assert (I : Int_part (-1) = -1).
  { unfold Int_part. assert (up (-1) = 0); [|lia]. symmetry. apply tech_up; lra. }
  rewrite I. destruct (Reqb_spec (-1) (-1)); [|contradiction]. destruct (Reqb_spec a 0); [contradiction|]. unfold powerRZ. now rewrite pow_1.
Qed.
Lemma Rsum_nonneg l : (forall x, In x l -> 0 <= x)%R -> (0 <= Rsum l)%R.
Proof. induction l as [|x l IH]; intros H; [unfold Rsum; cbn; lra|]. rewrite Rsum_cons. pose proof (H x (or_introl eq_refl)). assert (0 <= Rsum l)%R by (apply IH; intros; apply H; now right). lra. Qed.
Lemma gains_nonneg l : (0 <= gains l)%R.
Proof. apply Rsum_nonneg. intros x H. apply in_map_iff in H as (y & <- & _). apply Rmax_r. Qed.
Lemma losses_nonneg l : (0 <= losses l)%R.
Proof. apply Rsum_nonneg. intros x H. apply in_map_iff in H as (y & <- & _). apply Rmax_r. Qed.
(** MFI = 100 G / (G + L) for the gains and losses of the window, 0 when there are no losses; so it lies in [0,100]. *)
Theorem C55_exact (p : Z) (kl : list (Candle (N := XR))) (bs : list bar) : 1 <= p -> Forall2 is_bar kl bs ->
  exists rows, rows_of I_MFI p kl = Ok rows /\ length rows = length kl /\
  forall i r, nth_error rows i = Some r -> let w := window (flows 0 (map raw bs)) i (Z.to_nat p) in
    (losses w <> 0%R -> rVal r = Fin (100 * gains w / (gains w + losses w))) /\
    (losses w = 0%R -> rVal r = Fin 0) /\
    exists x, rVal r = Fin x /\ (0 <= x <= 100)%R.
Proof.
  intros Hp HB. destruct (bars_cn HB) as [Len HC]. rewrite MFI_T by lia. eexists. split; [reflexivity|]. split; [apply tab_length|].
  intros i r Er w. apply tab_some in Er as [Hi ->]. rewrite Len in Hi, HC. cbn [rVal].
  set (fs := flows 0 (map raw bs)) in *. assert (Lf : length fs = length bs) by (unfold fs; now rewrite flows_length, map_length).
  assert (RW : forall j, (j < length bs)%nat -> rawF kl j = Fin (raw (nth j bs bar0))).
  { intros j Hj. destruct (HC j Hj) as (_ & E1 & E2 & E3 & E4). unfold rawF, tpF. rewrite E1, E2, E3, E4. rewrite xr_ofZ, !xr_add, xr_div, xr_mul by lra. reflexivity. }
  assert (FL : forall j, (j < length bs)%nat -> flowF kl j = Fin (nth j fs 0%R)).
  { intros j Hj. unfold flowF, fs. rewrite flows_nth by (now rewrite map_length). cbv zeta. change (Z.to_nat 1) with 1%nat.
    assert (NR : forall k, (k < length bs)%nat -> nth k (map raw bs) 0%R = raw (nth k bs bar0)) by (intros k Hk; rewrite (nth_indep _ 0%R (raw bar0)) by (now rewrite map_length); apply map_nth).
    assert (S : forall q x : R, @fmul XR (sgnF (N := XR) (@fadd XR (Fin x) (@fmul XR (Fin q) (ofZ (-1))))) (Fin x) = Fin (if Rle_dec q x then x else - x)).
    { intros q x. rewrite xr_ofZ, xr_mul, xr_add. unfold sgnF. cbn [fle XR ofZ xle].
      destruct (Rleb_spec 0 (x + q * -1)), (Rle_dec q x); try lra; rewrite xr_mul; f_equal; lra. }
    rewrite (RW j Hj). destruct j as [|j].
    - cbn [Nat.ltb Nat.leb]. rewrite (NR 0%nat) by lia. rewrite xr_ofZ. apply S.
    - destruct (Nat.ltb_spec (Datatypes.S j) 1); [lia|]. replace (Datatypes.S j - 1)%nat with j by lia. rewrite (RW j) by lia. rewrite !NR by lia. apply S. }
  assert (G : runF (N := XR) (Z.to_nat p) (posF kl) (S i) = Fin (gains w)).
  { rewrite (@runF_exact _ _ (fun j => Rmax (nth j fs 0) 0)%R (length fs) i); [|lia|].
    - rewrite (@tab_map _ _ (fun x => Rmax x 0) fs 0%R), window_map. reflexivity.
    - intros j Hj. unfold posF. rewrite FL by lia. cbn. unfold Rmax. destruct (Rltb_spec 0%R (nth j fs 0%R)), (Rle_dec (nth j fs 0%R) 0%R); try lra; try reflexivity; f_equal; lra. }
  assert (L : runF (N := XR) (Z.to_nat p) (negF kl) (S i) = Fin (losses w)).
  { rewrite (@runF_exact _ _ (fun j => Rmax (- nth j fs 0) 0)%R (length fs) i); [|lia|].
    - rewrite (@tab_map _ _ (fun x => Rmax (- x) 0) fs 0%R), window_map. reflexivity.
    - intros j Hj. unfold negF. rewrite FL by lia. cbn. unfold Rmax. destruct (Rltb_spec (nth j fs 0%R) 0%R), (Rle_dec (- nth j fs 0%R)%R 0%R); try lra; cbn; f_equal; lra. }
  pose proof (gains_nonneg w) as G0. pose proof (losses_nonneg w) as L0.
  assert (E : mfiF (N := XR) (Z.to_nat p) kl i = Fin (- 100 / (ratio (gains w) (losses w) + 1) + 100)).
  { unfold mfiF. rewrite G, L, div_clean_exact, xr_ofZ, xr_add. assert (0 <= ratio (gains w) (losses w))%R.
    { unfold ratio. destruct (Req_EM_T _ _); [lra|]. apply Rmult_le_pos; [exact G0|]. left. apply Rinv_0_lt_compat. lra. }
    change (@Fin (IZR (-1))) with (@ofZ XR (-1)). rewrite pow_inv by lra. rewrite !xr_ofZ, xr_mul, xr_add. f_equal. field. lra. }
  rewrite E. destruct (Req_dec (losses w) 0) as [L1|L1].
  - assert (R0 : ratio (gains w) (losses w) = 0%R) by (rewrite L1; apply ratio_0). rewrite R0. assert (V : (-100 / (0 + 1) + 100 = 0)%R) by field. rewrite V. split; [intros; contradiction|]. split; [reflexivity|]. exists 0%R. split; [reflexivity|lra].
  - rewrite ratio_nz by exact L1. assert (V : (-100 / (gains w / losses w + 1) + 100 = 100 * gains w / (gains w + losses w))%R) by (field; repeat split; lra).
    rewrite V. split; [reflexivity|]. split; [intros; contradiction|]. eexists. split; [reflexivity|].
    split; apply Rmult_le_reg_r with (gains w + losses w)%R; try lra; unfold Rdiv; rewrite !Rmult_assoc, Rinv_l; lra.
Qed.
Print Assumptions C55_exact.
(** A window without losses reports 0, the opposite of the documented 100. *)
Definition xbar (z t : Z) : Candle (N := XR) := mkCandle (N := XR) (Fin 0) 0 (Fin (IZR z)) (Fin (IZR z)) (Fin (IZR z)) (Fin (IZR z)) (Fin 1) (Fin 0) true t.
Theorem C55_no_losses_refuted : exists rows : list (row xr), rows_of (N := XR) I_MFI 14 [xbar 5 60; xbar 6 120; xbar 8 180] = Ok rows /\ map (fun r => rVal r) rows = [Fin 0; Fin 0; Fin 0].
Proof.
  pose (bs := [mkBar 5 5 5 5 1; mkBar 6 6 6 6 1; mkBar 8 8 8 8 1]).
  destruct (@C55_exact 14 [xbar 5 60; xbar 6 120; xbar 8 180] bs) as (rows & E & Len & H); [lia|repeat constructor|].
  exists rows. split; [exact E|]. destruct rows as [|r0 [|r1 [|r2 [|]]]]; try discriminate Len. cbn [map].
  assert (F : flows 0 (map raw bs) = [5; 6; 8]%R).
  { unfold bs, raw. cbn. repeat destruct (Rle_dec _ _); try lra. repeat f_equal; lra. }
  assert (Z : forall i r, nth_error [r0; r1; r2] i = Some r -> rVal r = Fin 0).
  { intros i r Hr. destruct (H i r Hr) as (_ & H0 & _). apply H0. rewrite F. apply Rle_antisym; [|apply losses_nonneg].
    destruct (@Rsum_bounds (map (fun x => Rmax (- x) 0) (window [5; 6; 8]%R i (Z.to_nat 14))) 0 0) as [_ B]; [|unfold losses; lra].
    intros x Hx. apply in_map_iff in Hx as (y & <- & Hy). apply window_In in Hy. cbn in Hy. unfold Rmax. destruct (Rle_dec _ _); destruct Hy as [<-|[<-|[<-|[]]]]; lra. }
  f_equal; [exact (Z 0%nat r0 eq_refl)|]. f_equal; [exact (Z 1%nat r1 eq_refl)|]. f_equal. exact (Z 2%nat r2 eq_refl).
Qed.
Print Assumptions C55_no_losses_refuted.
Example C55_hyp : losses (flows 0 (map raw [mkBar 5 5 5 5 1; mkBar 6 6 6 6 1; mkBar 4 4 4 4 1])) = 4%R /\ gains (flows 0 (map raw [mkBar 5 5 5 5 1; mkBar 6 6 6 6 1; mkBar 4 4 4 4 1])) = 11%R.
Proof. unfold losses, gains, raw, Rsum. cbn. repeat destruct (Rle_dec _ _); try lra. cbn. unfold Rmax; repeat destruct (Rle_dec _ _); lra. Qed.

(** ** C52 *)
Lemma sq_run_exact (p : nat) (kl : list (Candle (N := XR))) (xs : list R) i : (1 <= p)%nat -> closes kl = map Fin xs -> (i <= length xs)%nat ->
  let q j := (nth j xs 0 * nth j xs 0)%R in sq_run p kl i = Fin (sumf q i - sumf q (i - (p - 1))).
Proof.
  intros Hp E Hi q. assert (C : forall j, (j < length xs)%nat -> cClose (cn kl j) = Fin (nth j xs 0%R)).
  { intros j Hj. assert (Q : nth_error (closes kl) j = Some (Fin (nth j xs 0%R))) by (rewrite E, nth_error_map, (nth_error_nth' xs 0%R) by exact Hj; reflexivity).
    rewrite nth_error_map in Q. destruct (nth_error kl j) eqn:Ej; [|discriminate]. apply cn_some in Ej as ->. now injection Q. }
  induction i as [|j IH]; cbn [sq_run].
  - cbn. f_equal. lra.
  - rewrite IH by lia. unfold sqF. rewrite !C by lia. rewrite !xr_mul, !xr_add. destruct (Nat.ltb_spec j (p - 1)).
    + replace (j - (p - 1))%nat with 0%nat by lia. replace (S j - (p - 1))%nat with 0%nat by lia. cbn [sumf]. f_equal. unfold q. lra.
    + rewrite xr_sub. replace (S j - (p - 1))%nat with (S (j - (p - 1))) by lia. cbn [sumf]. f_equal. unfold q. lra.
Qed.
(** Middle is the mean of the window, MD its standard deviation (0 before the window is full), and the bands lie one MD either side of it. *)
Theorem C52_exact (p : BollP) (kl : list (Candle (N := XR))) (xs : list R) : 1 <= blN p -> closes kl = map Fin xs ->
  exists rows, rows_of I_Boll p kl = Ok rows /\ length rows = length kl /\
  forall i r, nth_error rows i = Some r ->
    let w := window xs i (Z.to_nat (blN p)) in let md := if Z.of_nat i <? blN p - 1 then 0%R else sqrt (variance w) in
    blMiddle (rVal r) = Fin (mean w) /\ blMD (rVal r) = Fin md /\ blUpper (rVal r) = Fin (mean w + md) /\ blLower (rVal r) = Fin (mean w - md).
Proof.
  intros Hp E. rewrite Boll_T by exact Hp. eexists. split; [reflexivity|]. split; [apply tab_length|]. intros i r Er w md. apply tab_some in Er as [Hi ->]. cbn [rVal].
  assert (Len : length kl = length xs) by (apply (f_equal (@length _)) in E; now rewrite !map_length in E).
  set (n := Z.to_nat (blN p)) in *.
  assert (C : forall j, (j < length xs)%nat -> cClose (cn kl j) = Fin (nth j xs 0%R)).
  { intros j Hj. assert (Q : nth_error (closes kl) j = Some (Fin (nth j xs 0%R))) by (rewrite E, nth_error_map, (nth_error_nth' xs 0%R) by exact Hj; reflexivity).
    rewrite nth_error_map in Q. destruct (nth_error kl j) eqn:Ej; [|discriminate]. apply cn_some in Ej as ->. now injection Q. }
  assert (M : smaF (N := XR) n (fun j => cClose (cn kl j)) i = Fin (mean w)).
  { rewrite (@smaF_exact n _ (fun j => nth j xs 0%R) (length xs) i); auto; try lia. rewrite <- tab_of_list. reflexivity. }
  assert (D : bollMD (N := XR) n kl i = Fin md).
  { unfold bollMD, md. destruct (Nat.ltb_spec i (n - 1)), (Z.ltb_spec (Z.of_nat i) (blN p - 1)); try lia; [reflexivity|].
    rewrite M. unfold sqF. rewrite (@sq_run_exact n kl xs i) by (auto; lia). rewrite C by lia. rewrite xr_ofZ, !xr_mul, xr_add, IZR_INR. rewrite xr_div, xr_sub by (apply INR_nz; lia).
    assert (V : variance w = ((sumf (fun j => nth j xs 0 * nth j xs 0) i - sumf (fun j => nth j xs 0 * nth j xs 0) (i - (n - 1)) + nth i xs 0 * nth i xs 0) / INR n - mean w * mean w)%R).
    { unfold w. rewrite (@window_full _ xs i n 0%R) by lia. rewrite variance_tab by lia. unfold mean. rewrite Rsum_tab, tab_length. f_equal. f_equal.
      pose proof (sumf_split (fun j => nth j xs 0 * nth j xs 0)%R (S i - n) n) as S1. replace (S i - n + n)%nat with (S i) in S1 by lia. cbn [sumf] in S1. replace (S i - n)%nat with (i - (n - 1))%nat in * by lia. lra. }
    rewrite <- V. assert (0 <= variance w)%R by (apply variance_nonneg, window_not_nil; lia). change (xsqrt (Fin (variance w)) = Fin (sqrt (variance w))). unfold xsqrt. destruct (Rltb_spec (variance w) 0); [lra|reflexivity]. }
  unfold bollF. cbn [blMiddle blMD blUpper blLower]. rewrite M, D. rewrite xr_ofZ, xr_mul, !xr_add. repeat split. f_equal. lra.
Qed.
Print Assumptions C52_exact.
(** so Lower <= Middle <= Upper *)
Corollary C52_ordered_exact (p : BollP) (kl : list (Candle (N := XR))) (xs : list R) (rows : list (row BollV)) (i : nat) (r : row BollV) :
  1 <= blN p -> closes kl = map Fin xs -> rows_of I_Boll p kl = Ok rows -> nth_error rows i = Some r ->
  exists l m u, blLower (rVal r) = Fin l /\ blMiddle (rVal r) = Fin m /\ blUpper (rVal r) = Fin u /\ (l <= m <= u)%R.
Proof.
  intros Hp E Er Hr. destruct (@C52_exact p kl xs Hp E) as (rows' & E' & Len & H). rewrite E' in Er. injection Er as ->. destruct (H i r Hr) as (H1 & H2 & H3 & H4).
  do 3 eexists. split; [exact H4|]. split; [exact H1|]. split; [exact H3|]. assert (0 <= if Z.of_nat i <? blN p - 1 then 0 else sqrt (variance (window xs i (Z.to_nat (blN p)))))%R; [|lra].
  destruct (_ <? _); [lra|apply sqrt_pos].
Qed.
Print Assumptions C52_ordered_exact.
(** In both models, on any data: Middle is never below Lower nor above Upper (in float64 the bands may be NaN, see below). *)
Theorem C52_never_crossed (m : Model) (p : BollP) (kl : list (Candle (N := num m))) : 1 <= blN p -> Forall (datum m) (closes kl) ->
  exists rows, rows_of I_Boll p kl = Ok rows /\ length rows = length kl /\
  Forall (fun r => (blMiddle (rVal r) <~ blLower (rVal r)) = false /\ (blUpper (rVal r) <~ blMiddle (rVal r)) = false) rows.
Proof.
  intros Hp HC. rewrite Boll_T by exact Hp. eexists. split; [reflexivity|]. split; [apply tab_length|]. rewrite Forall_forall. intros r Hr. apply tab_In in Hr as (i & Hi & <-). cbn [rVal]. unfold bollF. cbn [blMiddle blUpper blLower].
  pose proof (rnd_laws m) as RL. pose proof (rl_A RL) as A. pose proof (all_cn (fun c => cClose c) kl HC) as HC'. set (n := Z.to_nat (blN p)).
  assert (R : forall i, (i <= length kl)%nat -> datum m (runF n (fun j => cClose (cn kl j)) i)).
  { induction i0 as [|j IH]; intros Hj; cbn [runF]; [apply (al_Z A)|]. destruct (_ <=? _)%nat; [apply (al_sub A); [|apply HC'; lia]|]; apply (al_add A); try (apply IH; lia); apply HC'; lia. }
  assert (M : datum m (smaF n (fun j => cClose (cn kl j)) i)).
  { unfold smaF, sma_clean. destruct (isNaN _ || isNInf _); [apply (al_Z A)|]. apply (al_div A); [apply R; lia|apply (al_Z A)]. }
  assert (Q : forall i, (i <= length kl)%nat -> datum m (sq_run n kl i)).
  { induction i0 as [|j IH]; intros Hj; cbn [sq_run]; [apply (al_Z A)|]. unfold sqF. destruct (_ <? _)%nat; [|apply (al_sub A); [|apply (al_mul A); apply HC'; lia]]; apply (al_add A); try (apply IH; lia); apply (al_mul A); apply HC'; lia. }
  assert (D : nng (datum m) (ext m) (bollMD n kl i)).
  { unfold bollMD. destruct (_ <? _)%nat; [apply (nng_Z RL); lia|]. apply (nng_sqrt RL). apply (al_sub A); [|apply (al_mul A); exact M].
    apply (al_div A); [|apply (al_Z A)]. apply (al_add A); [apply Q; lia|]. apply (al_mul A); apply HC'; exact Hi. }
  rewrite (al_minus A) by apply D. split; [apply (sub_le RL)|apply (add_ge RL)]; assumption.
Qed.
Print Assumptions C52_never_crossed.
(** The multiplier is ignored. *)
Theorem C52_multiplier_refuted (N : Num) (n k k' : Z) (kl : list Candle) : rows_of I_Boll (mkBollP n k) kl = rows_of I_Boll (mkBollP n k') kl.
Proof. reflexivity. Qed.
Print Assumptions C52_multiplier_refuted.
(** In float64 the variance of equal closes can come out negative: closes 0.4, period 2: MD is NaN, and so are the bands. *)
Theorem C52_float_nan_refuted :
  let c := mkCandle (N := EX) (fz 0) 0 (lit 4 10) (lit 4 10) (lit 4 10) (lit 4 10) (fz 1) (fz 0) true 60 in
  rmap (map (fun r => isNaN (blUpper (rVal r)) && isNaN (blLower (rVal r)))) (rows_of (N := EX) I_Boll (mkBollP 2 2) [c; c; c; c]) = Ok [false; false; true; true].
Proof. vm_compute. reflexivity. Qed.
Print Assumptions C52_float_nan_refuted.
(** No bar is ever a Sell; Buy is a close crossing above the upper band, not below the lower one. *)
Theorem C52_never_sell_refuted (m : Model) (p : BollP) (kl : list (Candle (N := num m))) (s : list Side) :
  1 <= blN p -> sides_of I_Boll p kl = Ok s -> ~ In Sell s.
Proof.
  intros Hp Es HIn. assert (Irr : forall x : @F (num m), (x <~ x) = false).
  { intros x. destruct (x <~ x) eqn:E; [|reflexivity]. destruct (isNaN x) eqn:Nx.
    - destruct (ol_lt_nan (ord_laws m) x x (or_introl Nx)) as (Q & _). congruence.
    - pose proof (ol_asym (ord_laws m) Nx Nx E). congruence. }
  apply In_nth_error in HIn as (i & Hi).
  pose proof (Boll_T p kl Hp) as Er.
  assert (Len : length s = length kl) by (apply (@C40_sides (num m) I_Boll p kl s); [cbn; tauto|intros Q; discriminate Q|exact Es]).
  assert (Hl : (i < length kl)%nat) by (rewrite <- Len; apply nth_error_Some; congruence).
  destruct i as [|i].
  - destruct kl as [|c kl]; [cbn in Hl; lia|]. pose proof (@C26_refuted (num m) I_Boll p (c :: kl) s ltac:(cbn; tauto) ltac:(intros Q; discriminate Q) ltac:(discriminate) Es) as Q. rewrite Hi in Q. discriminate Q.
  - pose proof (@C64_Boll (num m) p) as Q. unfold follows in Q.
    specialize (Q kl _ s Er Es (S i) (cn kl (S i)) (cn kl i) (mkRow (tm kl (S i)) (bollF (Z.to_nat (blN p)) kl (S i))) (mkRow (tm kl i) (bollF (Z.to_nat (blN p)) kl i)) Sell ltac:(lia) ltac:(lia) (cn_in kl Hl) (cn_in kl (i := i) ltac:(cbn; lia))).
    destruct Q as (Q1 & Q2 & Q3); [apply tab_nth_error; exact Hl|apply tab_nth_error; cbn; lia|exact Hi|].
    rewrite Irr in Q3. destruct (cClose (cn kl (S i)) >~ _) eqn:E1; destruct (cClose (cn kl i) <~ _) eqn:E2; 
      try (assert (Sell = Hold) by (apply Q3; intros [? ?]; congruence); discriminate).
    assert (Sell = Buy) by (apply Q1; split; (assumption || reflexivity)). discriminate.
Qed.
Print Assumptions C52_never_sell_refuted.
Example C52_hyp : rmap (map (fun r => (blMiddle (rVal r) ==~ ofZ 6) && (blMD (rVal r) ==~ ofZ 1) && (blUpper (rVal r) ==~ ofZ 7) && (blLower (rVal r) ==~ ofZ 5))) (rows_of (N := EX) I_Boll (mkBollP 2 2) (flat [5; 7; 5; 9])) = Ok [false; true; true; false].
Proof. vm_compute. reflexivity. Qed.
