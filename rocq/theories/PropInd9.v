(** * PropInd9: properties C73 (moving-average objects), C74 (RSI formula) and C75 (force index, ease of movement,
    volume price trend).

    The vocabulary is in SpecInd2.v and SpecTa.v. *)
From Coq Require Import Reals Lra.
From Verif Require Import Base Num Order B64 XReal Rounding FloatLaws Lits Containers Ta TaTools TaElem TaAvg SpecTa Sides Klines
  KlineProofs3 IndBase IndTrend IndChannel IndVolume IndOsc IndTools SpecInd2 IndForms IndForms2 IndForms3 IndFormsSpec IndExact PropInd1.
Set Implicit Arguments.
Open Scope Z_scope.

Local Notation closes := (map (fun c => cClose c)).
Local Notation highs := (map (fun c => cHigh c)).
Local Notation lows := (map (fun c => cLow c)).
Local Notation volumes := (map (fun c => cVolume c)).
Local Notation C kl := (fun i => cClose (cn kl i)).

(** ** C73 *)
(** Ma and Sma agree, on any arithmetic: both report what ta.Sma (C08) makes of the closes, and panic exactly when it does. *)
Theorem C73_Ma_is_Sma (N : Num) (p : Z) (kl : list Candle) :
  rmap (column (fun v => v)) (rows_of I_Ma p kl) = Sma p (closes kl) /\
  rmap (column (fun v => v)) (rows_of I_Sma p kl) = Sma p (closes kl).
Proof.
  destruct (Z_lt_le_dec p 0) as [Hp|Hp].
  - destruct kl as [|c kl].
    + unfold rows_of, GetData, I_Ma, I_Sma. cbn [len length Z.of_nat Z.eqb Calculation Val Param]. unfold ma_calc, sma_calc. rewrite OHLC_T.
      cbn. split; reflexivity.
    + unfold rows_of, GetData, I_Ma, I_Sma. cbn [len length Z.of_nat Z.eqb Calculation Val Param]. unfold ma_calc, sma_calc. rewrite OHLC_T. cbn [bind oClose OH].
      rewrite cmap. rewrite Sma_neg; [split; reflexivity|exact Hp|discriminate].
  - rewrite Ma_T, Sma_ind_T by exact Hp. cbn [rmap]. rewrite cmap, Sma_T by exact Hp. split; f_equal; apply column_T.
Qed.
Print Assumptions C73_Ma_is_Sma.
(** In exact arithmetic that is the mean of the last p closes (of all closes so far during the first p-1 bars). *)
Theorem C73_Ma_mean (p : Z) (kl : list (Candle (N := XR))) (xs : list R) : 1 <= p -> closes kl = fins xs ->
  let means := fins (map (fun i => mean (window xs i (Z.to_nat p))) (seq 0 (length xs))) in
  rmap (column (fun v => v)) (rows_of I_Ma p kl) = Ok means /\
  rmap (column (fun v => v)) (rows_of I_Sma p kl) = Ok means.
Proof.
  intros Hp Hx means. destruct (@C73_Ma_is_Sma XR p kl) as [E1 E2]. rewrite E1, E2, Hx.
  pose proof (@Sma_exact (Z.to_nat p) xs) as S. rewrite Z2Nat.id in S by lia. rewrite S by lia.
  enough (Q : tab (length xs) (fun i => Fin (mean (window xs i (Z.to_nat p)))) = means) by (rewrite <- Q; split; reflexivity).
  unfold means, fins, tab. now rewrite map_map.
Qed.
Print Assumptions C73_Ma_mean.
Theorem C73_Ema (N : Num) (p : Z) (kl : list Candle) :
  exists rows, rows_of I_Ema p kl = Ok rows /\ ema_of p (closes kl) (column (fun v => v) rows).
Proof. rewrite Ema_ind_T, cmap. eexists. split; [reflexivity|]. rewrite column_T. apply ema_of_T. Qed.
Print Assumptions C73_Ema.
Theorem C73_Dema (N : Num) (okv : F -> Prop) (A : ArithLaws N okv) (p : Z) (kl : list Candle) : Forall okv (closes kl) ->
  exists rows e1 e2, rows_of I_Dema p kl = Ok rows /\ ema_of p (closes kl) e1 /\ ema_of p e1 e2 /\
    column (fun v => v) rows = pointwise (fun a b => a *~ ofZ 2 -~ b) e1 e2.
Proof.
  intros Hok. pose proof (okv_cn (fun c => cClose c) kl Hok) as Hc. rewrite cmap, Dema_ind_T.
  eexists _, (tab (length kl) (emaF p (C kl))), (tab (length kl) (emaF p (emaF p (C kl)))).
  split; [reflexivity|]. rewrite column_T. split; [apply ema_of_T|]. split; [apply ema_of_T|].
  rewrite pointwise_T. apply tab_ext. intros i Hi. apply (al_minus A). eapply emaF_ok; eauto. intros j Hj. eapply emaF_ok; eauto.
Qed.
Print Assumptions C73_Dema.
Theorem C73_TraderXO (N : Num) (p : XOP) (kl : list Candle) :
  exists rows, rows_of I_TraderXO p kl = Ok rows /\
    ema_of (xFastP p) (closes kl) (column (fun v => xFast v) rows) /\ ema_of (xSlowP p) (closes kl) (column (fun v => xSlow v) rows).
Proof. rewrite TraderXO_T, cmap. eexists. split; [reflexivity|]. rewrite !column_T. split; apply ema_of_T. Qed.
Print Assumptions C73_TraderXO.
Theorem C73_EMAVegas (N : Num) (p : VegasP) (kl : list Candle) :
  exists rows, rows_of I_EMAVegas p kl = Ok rows /\
    ema_of (vgP p) (closes kl) (column (fun v => gV v) rows) /\
    ema_of (vgS1 p) (closes kl) (column (fun v => gS1 v) rows) /\ ema_of (vgS2 p) (closes kl) (column (fun v => gS2 v) rows) /\
    ema_of (vgL1 p) (closes kl) (column (fun v => gL1 v) rows) /\ ema_of (vgL2 p) (closes kl) (column (fun v => gL2 v) rows).
Proof.
  rewrite EMAVegas_T, cmap. eexists. split; [reflexivity|]. rewrite !column_T. unfold vegasF. cbn [gV gS1 gS2 gL1 gL2].
  repeat split; apply ema_of_T.
Qed.
Print Assumptions C73_EMAVegas.
(** trend.Rma: as many blank rows as candles, and after them what ta.Rma (C12) makes of the closes. *)
Theorem C73_Rma (N : Num) (p : Z) (kl : list Candle) :
  exists rows, rows_of I_Rma p kl = Ok (repeat (mkRow zero_time (ofZ 0)) (length kl) ++ rows) /\
    Rma p (closes kl) = Ok (column (fun v => v) rows) /\ map (@rTime F) rows = map (fun c => unix (cTime c)) kl.
Proof.
  exists (tab (length kl) (fun i => mkRow (tm kl i) (rmaF p (length kl) (C kl) i))). split; [|split].
  - T_start I_Rma rma_calc. rewrite Rma_Tn. cbn [bind]. rewrite len_tab, make_tab. cbn [bind].
    rewrite (@append_rows_T _ _ _ _ _ _ (rmaF p (length kl) (C kl)) _ eq_refl); [reflexivity|intros; now apply time_at_T|T_get].
  - rewrite column_T, cmap. apply Rma_Tn.
  - rewrite tabmap, cmap. reflexivity.
Qed.
Print Assumptions C73_Rma.
Example C73_hyp : rmap (map (fun x => rVal x ==~ fz 5)) (rows_of I_Ma 2 (flat [4; 6; 8])) = Ok [false; true; false] /\
  rmap (map (fun x => rVal x ==~ fz 5)) (rows_of I_Ema 3 (flat [4; 6; 9])) = Ok [false; true; false] /\
  rmap (map (fun x => rVal x ==~ fz 0)) (rows_of I_Rma 3 (flat [4; 6; 9])) = Ok [true; true; true; true; false; false].
Proof. repeat split; vm_compute; reflexivity. Qed.

(** ** C74 *)
(** The gain and the loss of a change of price are added to two totals, one of which stays as it is. *)
Definition moved {N : Num} (c' c : F) (g' l' g l : F) : Prop :=
  if c -~ c' <~ ofZ 0 then g = g' /\ l = l' -~ (c -~ c') else g = g' +~ (c -~ c') /\ l = l'.
(** [gs] and [ls] are the average gains and losses of Wilder's relative strength index, entry 0 belonging to bar p:
    first the totals of the changes of bars 1..p divided by p, then (average * (p-1) + new) / p. *)
Definition first_averages {N : Num} (p : nat) (xs : list F) (g l : F) : Prop :=
  exists G L : list F, length G = S p /\ length L = S p /\ nth_error G 0 = Some (ofZ 0) /\ nth_error L 0 = Some (ofZ 0) /\
    (forall j c' c g' g1 l' l1, nth_error xs j = Some c' -> nth_error xs (S j) = Some c ->
       nth_error G j = Some g' -> nth_error G (S j) = Some g1 -> nth_error L j = Some l' -> nth_error L (S j) = Some l1 ->
       moved c' c g' l' g1 l1) /\
    exists gp lp, nth_error G p = Some gp /\ nth_error L p = Some lp /\ g = gp /~ ofZ (Z.of_nat p) /\ l = lp /~ ofZ (Z.of_nat p).
Definition next_averages {N : Num} (p : nat) (c' c g' l' g l : F) : Prop :=
  exists gt lt, moved c' c (g' *~ ofZ (Z.of_nat p - 1)) (l' *~ ofZ (Z.of_nat p - 1)) gt lt /\
    g = gt /~ ofZ (Z.of_nat p) /\ l = lt /~ ofZ (Z.of_nat p).
(** the index: 100 gain / (gain + loss), and 0 when gain + loss is less than 1e-14 away from 0 *)
Definition strength {N : Num} (g l : F) : F :=
  if (lit (-1) 100000000000000 <~ g +~ l) && (g +~ l <~ lit 1 100000000000000) then ofZ 0 else ofZ 100 *~ (g /~ (g +~ l)).

Lemma moved_add (N : Num) c' c g l : moved c' c g l (fst (rsi_add (c -~ c') g l)) (snd (rsi_add (c -~ c') g l)).
Proof. unfold moved, rsi_add. destruct (_ <~ _); split; reflexivity. Qed.
Theorem C74_Rsi (N : Num) (p : nat) (kl : list Candle) : (2 <= p)%nat -> (p < length kl)%nat ->
  exists rows gs ls, rows_of I_Rsi (Z.of_nat p) kl = Ok rows /\
    length gs = (length kl - p)%nat /\ length ls = (length kl - p)%nat /\
    column (fun v => v) rows = repeat (ofZ 0) p ++ pointwise strength gs ls /\
    (forall g l, nth_error gs 0 = Some g -> nth_error ls 0 = Some l -> first_averages p (closes kl) g l) /\
    (forall d c' c g' l' g l, nth_error (closes kl) (p + d) = Some c' -> nth_error (closes kl) (p + S d) = Some c ->
       nth_error gs d = Some g' -> nth_error ls d = Some l' -> nth_error gs (S d) = Some g -> nth_error ls (S d) = Some l ->
       next_averages p c' c g' l' g l).
Proof.
  intros Hp Hn. rewrite Rsi_T by assumption.
  eexists _, (tab (length kl - p) (fun d => fst (rsiW p (C kl) d))), (tab (length kl - p) (fun d => snd (rsiW p (C kl) d))).
  split; [reflexivity|]. rewrite !tab_length. split; [reflexivity|]. split; [reflexivity|]. rewrite column_T, cmap. split; [|split].
  - rewrite pointwise_T. apply list_ext. intros i. destruct (Nat.lt_ge_cases i (length kl)) as [Hi|Hi].
    + rewrite tab_nth_error by exact Hi. unfold rsiF. destruct (Nat.ltb_spec i p) as [Hip|Hip].
      * rewrite nth_error_app1 by (rewrite repeat_length; exact Hip). now rewrite nth_error_repeat.
      * rewrite nth_error_app2 by (rewrite repeat_length; exact Hip). rewrite repeat_length, tab_nth_error by lia. f_equal.
        unfold rsi_out, strength. destruct (_ && _); reflexivity.
    + transitivity (@None F); [apply nth_error_None; rewrite tab_length; exact Hi|symmetry; apply nth_error_None; rewrite app_length, repeat_length, tab_length; lia].
  - intros g l Eg El. apply tab_some in Eg as [_ ->]. apply tab_some in El as [_ ->].
    exists (tab (S p) (fun j => fst (rsiA (C kl) j))), (tab (S p) (fun j => snd (rsiA (C kl) j))).
    rewrite !tab_length. split; [reflexivity|]. split; [reflexivity|]. rewrite !tab_nth_error by lia. split; [reflexivity|]. split; [reflexivity|]. split.
    + intros j c' c g' g1 l' l1 Ec' Ec Eg' Eg1 El' El1.
      apply tab_some in Ec' as [_ ->]. apply tab_some in Ec as [_ ->]. apply tab_some in Eg' as [_ ->]. apply tab_some in Eg1 as [_ ->].
      apply tab_some in El' as [_ ->]. apply tab_some in El1 as [_ ->]. apply moved_add.
    + eexists _, _. split; [reflexivity|]. split; [reflexivity|]. split; reflexivity.
  - intros d c' c g' l' g l Ec' Ec Eg' El' Eg El.
    apply tab_some in Ec' as [_ ->]. apply tab_some in Ec as [_ ->]. apply tab_some in Eg' as [_ ->]. apply tab_some in Eg as [_ ->].
    apply tab_some in El' as [_ ->]. apply tab_some in El as [_ ->]. eexists _, _. split; [apply moved_add|]. split; reflexivity.
Qed.
Print Assumptions C74_Rsi.
(** A period below 2, or above the number of candles: all rows are 0. *)
Theorem C74_degenerate (N : Num) (p : Z) (kl : list Candle) : len kl < p \/ p < 2 ->
  rmap (column (fun v => v)) (rows_of I_Rsi p kl) = Ok (repeat (ofZ 0) (length kl)).
Proof. intros H. rewrite Rsi_short by exact H. cbn [rmap]. now rewrite column_T, <- tab_const. Qed.
Print Assumptions C74_degenerate.
Example C74_hyp : rmap (map (fun x => (rVal x ==~ fz 75, rVal x ==~ fz 60))) (rows_of I_Rsi 2 (flat [10; 13; 12; 12; 13])) =
  Ok [(false, false); (false, false); (true, false); (true, false); (false, false)].
Proof. vm_compute. reflexivity. Qed.

(** ** C75 *)
Lemma totals_tab (N : Num) n (m g : nat -> F) s : (forall i, (i < n)%nat -> g i = (match i with O => s | S j => g j end) +~ m i) ->
  tab n g = totals_from s (tab n m).
Proof.
  revert m g s. induction n as [|n IH]; intros m g s E; [reflexivity|].
  assert (T : forall X (f : nat -> X), tab (S n) f = f 0%nat :: tab n (fun i => f (S i))).
  { intros X f. unfold tab. cbn. f_equal. rewrite <- seq_shift, map_map. reflexivity. }
  rewrite !T. cbn [totals_from]. rewrite (E 0%nat) by lia. f_equal. rewrite <- (E 0%nat) by lia.
  apply IH. intros i Hi. rewrite (E (S i)) by lia. destruct i; reflexivity.
Qed.
(** the force index is the exponential average of (close - previous close) * volume; before the first bar the close counts as 0 *)
Theorem C75_ForceIndex (N : Num) (okv : F -> Prop) (A : ArithLaws N okv) (p : Z) (kl : list Candle) : Forall okv (closes kl) ->
  exists rows, rows_of I_Force p kl = Ok rows /\
    ema_of p (pointwise fmul (pointwise fsub (closes kl) (previous (ofZ 0) (closes kl))) (volumes kl)) (column (fun v => v) rows).
Proof.
  intros Hok. pose proof (okv_cn (fun c => cClose c) kl Hok) as Hc. rewrite Force_T. eexists. split; [reflexivity|]. rewrite column_T.
  replace (pointwise fmul _ _) with (tab (length kl) (forceF kl)); [apply ema_of_T|].
  rewrite !cmap. rewrite previous_T, !pointwise_T. apply tab_ext. intros i Hi. unfold forceF. f_equal.
  destruct i as [|j]; cbn [Z.to_nat Pos.to_nat Pos.iter_op Nat.ltb Nat.leb Nat.add].
  - apply (al_minus A). apply (al_Z A).
  - replace (S j - Pos.to_nat 1)%nat with j by (change (Pos.to_nat 1) with 1%nat; lia). apply (al_minus A). apply Hc. lia.
Qed.
Print Assumptions C75_ForceIndex.
(** ease of movement: the simple average (ta.Sma, C08) of distance / box, where the distance is the move of the bar's midpoint
    since the previous bar (since 0 at the first bar) and the box is (volume / 100000000) / (high - low) *)
Definition midpoint {N : Num} (c : Candle) : F := (cHigh c +~ cLow c) /~ ofZ 2.
Definition ease {N : Num} (kl : list Candle) : list F :=
  pointwise ratio (pointwise fsub (map midpoint kl) (previous (ofZ 0) (map midpoint kl)))
    (map (fun c => ratio (cVolume c *~ (ofZ 1 /~ ofZ 100000000)) (cHigh c -~ cLow c)) kl).
Theorem C75_EaseOfMovement (N : Num) (okv : F -> Prop) (A : ArithLaws N okv) (p : Z) (kl : list Candle) : 0 <= p ->
  Forall okv (highs kl) -> Forall okv (lows kl) ->
  exists rows, rows_of I_EMV p kl = Ok rows /\ Sma p (ease kl) = Ok (column (fun v => v) rows).
Proof.
  intros Hp Hh Hl. pose proof (okv_cn (fun c => cHigh c) kl Hh) as Hhc. pose proof (okv_cn (fun c => cLow c) kl Hl) as Hlc.
  rewrite EMV_T by exact Hp. eexists. split; [reflexivity|]. rewrite column_T.
  replace (ease kl) with (tab (length kl) (emvF kl)); [apply Sma_T; exact Hp|].
  assert (M : forall i, (i < length kl)%nat -> midF kl i = midpoint (cn kl i)).
  { intros i Hi. unfold midF, midpoint. apply (al_half A). apply (al_add A); auto. }
  assert (Mo : forall i, (i < length kl)%nat -> okv (midpoint (cn kl i))).
  { intros i Hi. apply (al_div A); [apply (al_add A); auto|apply (al_Z A)]. }
  unfold ease. rewrite !cmap. rewrite previous_T, !pointwise_T. apply tab_ext. intros i Hi. unfold emvF. rewrite !ratio_clean.
  rewrite (al_minus A (cHigh (cn kl i)) (cLow (cn kl i))) by auto. f_equal. rewrite M by exact Hi. change (Z.to_nat 1) with 1%nat.
  destruct i as [|j]; cbn [Nat.ltb Nat.leb].
  - apply (al_minus A). apply (al_Z A).
  - replace (S j - 1)%nat with j by lia. rewrite M by lia. apply (al_minus A). apply Mo. lia.
Qed.
Print Assumptions C75_EaseOfMovement.
(** the value p bars back, and d while there is none *)
Definition lagged {A} (p : nat) (d : A) (xs : list A) : list A := firstn (length xs) (repeat d p ++ xs).
Lemma lagged_T A p (d : A) n f : lagged p d (tab n f) = tab n (fun i => if (i <? p)%nat then d else f (i - p)%nat).
Proof.
  unfold lagged. rewrite tab_length. apply list_ext. intros i. destruct (Nat.lt_ge_cases i n) as [Hi|Hi].
  - rewrite nth_error_firstn_lt, tab_nth_error by exact Hi. destruct (Nat.ltb_spec i p) as [Hip|Hip].
    + rewrite nth_error_app1 by (rewrite repeat_length; exact Hip). now rewrite nth_error_repeat.
    + rewrite nth_error_app2 by (rewrite repeat_length; exact Hip). rewrite repeat_length, tab_nth_error by lia. reflexivity.
  - transitivity (@None A); [|symmetry]; apply nth_error_None; rewrite ?tab_length; [|exact Hi].
    rewrite firstn_length. lia.
Qed.
(** volume price trend: the running total of volume * (close - base) / base, where base is the close p bars back, and the
    first close while there is none *)
Theorem C75_VolumePriceTrend (N : Num) (okv : F -> Prop) (A : ArithLaws N okv) (p : nat) (kl : list Candle) (c0 : F) :
  Forall okv (closes kl) -> nth_error (closes kl) 0 = Some c0 ->
  let base := lagged p c0 (closes kl) in
  exists rows, rows_of I_VPT (Z.of_nat p) kl = Ok rows /\
    column (fun v => v) rows = totals_from (ofZ 0) (pointwise fmul (volumes kl) (pointwise ratio (pointwise fsub (closes kl) base) base)).
Proof.
  intros Hok H0 base. pose proof (okv_cn (fun c => cClose c) kl Hok) as Hc.
  assert (Hn : kl <> []) by (intros ->; discriminate H0).
  assert (Hl : (0 < length kl)%nat) by (destruct kl; [congruence|cbn [length]; lia]).
  rewrite VPT_T by (lia || exact Hn). eexists. split; [reflexivity|]. rewrite column_T. unfold base. clear base.
  rewrite cmap in H0. rewrite tab_nth_error in H0 by exact Hl. injection H0 as <-. rewrite !cmap, lagged_T, !pointwise_T.
  refine (eq_trans (@totals_tab N (length kl) (vptS (Z.of_nat p) kl) (fun i => runF (length kl) (vptS (Z.of_nat p) kl) (S i)) (ofZ 0) _) _); cycle 1.
  - f_equal. apply tab_ext. intros i Hi. unfold vptS. rewrite Nat2Z.id. cbn zeta. rewrite ratio_clean. f_equal. f_equal.
    apply (al_minus A). destruct (_ <? _)%nat eqn:E; apply Hc; lia.
  - assert (R : forall j, (j < length kl)%nat -> runF (length kl) (vptS (Z.of_nat p) kl) (S j) =
      runF (length kl) (vptS (Z.of_nat p) kl) j +~ vptS (Z.of_nat p) kl j).
    { intros j Hj. change (runF (length kl) ?f (S j)) with (let s := runF (length kl) f j +~ f j in
        if (length kl <=? j)%nat then s -~ f (j - length kl)%nat else s). cbn zeta. destruct (Nat.leb_spec (length kl) j); [lia|reflexivity]. }
    intros i Hi. rewrite R by exact Hi. destruct i; reflexivity.
Qed.
Print Assumptions C75_VolumePriceTrend.
Theorem C75_VolumePriceTrend_empty (N : Num) (p : Z) : rows_of I_VPT p [] = Panic.
Proof. reflexivity. Qed.
Print Assumptions C75_VolumePriceTrend_empty.
(** float64 meets the arithmetic laws, with every value admissible *)
Example C75_hyp :
  rmap (map (fun x => (rVal x ==~ fz 900, rVal x ==~ fz 1450))) (rows_of I_Force 3 [kd 9 9 9 9 100 60; kd 11 11 11 11 1000 120]) =
    Ok [(true, false); (false, true)] /\
  rmap (map (fun x => rVal x ==~ fz 50)) (rows_of I_VPT 1 [kd 9 9 9 10 100 60; kd 9 9 9 15 100 120; kd 9 9 9 15 7 180]) = Ok [false; true; true] /\
  rmap (map (fun x => rVal x ==~ fz 4)) (rows_of I_EMV 2 [kd 2 3 1 2 100000000 60; kd 3 4 2 3 50000000 120]) = Ok [true; true].
Proof. repeat split; vm_compute; reflexivity. Qed.
