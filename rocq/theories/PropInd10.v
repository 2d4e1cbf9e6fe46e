(** * PropInd10: property C76 (stochastic RSI). *)
From Coq Require Import Reals Lra ZArith Lia Bool List Sorted.
From Verif Require Import Base Num XReal Order OrderMore FloatLaws FloatOrder FloatBounds SpecNum B64 Lits Containers Ta TaTools TaAvg TaRange SpecTa Klines RSum XrMore SpecInd2
  IndBase IndTrend IndChannel IndOsc IndTools IndForms IndForms2 IndForms3 IndForms4 IndFormsSpec IndBounds IndBounds2 IndExact PropInd1 PropInd5 PropInd6 PropInd7.
Import ListNotations.
Set Implicit Arguments.
Open Scope Z_scope.
Local Notation closes := (map (fun c => cClose c)).

Lemma Rsi_any (N : Num) (p : Z) (kl : list Candle) : ~ (2 <= p /\ p = len kl) ->
  exists g, rows_of I_Rsi p kl = Ok (tab (length kl) (fun i => mkRow (tm kl i) (g i))).
Proof.
  intros H. destruct (Z_lt_le_dec p 2) as [Hp|Hp]; [exists (fun _ => fzero); now apply Rsi_short; right|].
  destruct (Z.lt_trichotomy (len kl) p) as [Hl|[Hl|Hl]].
  - exists (fun _ => fzero). now apply Rsi_short; left.
  - lia.
  - replace p with (Z.of_nat (Z.to_nat p)) by lia. eexists. apply Rsi_T; unfold len in *; lia.
Qed.
Lemma StochRsi_T (N : Num) (O : OrdLaws N) (p : StochRsiP) (kl : list Candle) (g : nat -> F) : 1 <= srStoch p ->
  rows_of I_Rsi (srRsi p) kl = Ok (tab (length kl) (fun i => mkRow (tm kl i) (g i))) -> no_nan (tab (length kl) g) ->
  exists h l, (forall i, (i < length kl)%nat -> max_of (h i) (window (tab (length kl) g) i (Z.to_nat (srStoch p)))) /\
    (forall i, (i < length kl)%nat -> min_of (l i) (window (tab (length kl) g) i (Z.to_nat (srStoch p)))) /\
    rows_of I_StochRsi p kl = Ok (tab (length kl) (fun i => mkRow (tm kl i) (mkKD (emaF (srK p) (stoK g h l) i) (emaF (srD p) (emaF (srK p) (stoK g h l)) i)))).
Proof.
  intros Hs E Hn. destruct (@Max_T N O (srStoch p) (length kl) g Hs Hn) as (h & Eh & Hh). destruct (@Min_T N O (srStoch p) (length kl) g Hs Hn) as (l & El & Hl).
  exists h, l. split; [exact Hh|]. split; [exact Hl|]. unfold rows_of, GetData, I_StochRsi. cbn [len length Z.of_nat Z.eqb Calculation Val Param]. unfold stochrsi_calc.
  rewrite E. cbn [bind]. rewrite values_app_T. cbn [bind rVal]. change (tab (length kl) (fun i => g i)) with (tab (length kl) g). rewrite Eh, El. cbn [bind]. T_steps.
  T_append (fun i => mkKD (emaF (srK p) (stoK g h l) i) (emaF (srD p) (emaF (srK p) (stoK g h l)) i)).
Qed.

(** the position of a value between the lowest and the highest value, in percent; 0 when they are equal *)
Definition position_in {N : Num} (lo hi x : F) : F := ratio (x -~ lo) (hi -~ lo) *~ ofZ 100.
Section C76.
Variables (m : Model) (p : StochRsiP) (kl : list (Candle (N := num m))).
Hypothesis Hc : Forall (price m) (closes kl).
Hypothesis Hr : srRsi p <= 2 ^ 51.
Hypothesis Hs : 1 <= srStoch p.
Hypothesis Hx : ~ (2 <= srRsi p /\ srRsi p = len kl).

Lemma within_price x : within m 0 100 x -> price m x.
Proof.
  intros (r & H & B). exists r. split; [exact H|]. destruct m; [exact I|]. rewrite Rabs_right by lra.
  apply Rle_trans with (2 ^ 7)%R; [lra|]. apply Rle_pow; [lra|lia].
Qed.
Lemma sr_facts : exists g h l B, rows_of I_Rsi (srRsi p) kl = Ok (tab (length kl) (fun i => mkRow (tm kl i) (g i))) /\
    (forall i, (i < length kl)%nat -> max_of (h i) (window (tab (length kl) g) i (Z.to_nat (srStoch p)))) /\
    (forall i, (i < length kl)%nat -> min_of (l i) (window (tab (length kl) g) i (Z.to_nat (srStoch p)))) /\
    rows_of I_StochRsi p kl = Ok (tab (length kl) (fun i => mkRow (tm kl i) (mkKD (emaF (srK p) (stoK g h l) i) (emaF (srD p) (emaF (srK p) (stoK g h l)) i)))) /\
    ScaleLaw B (rd m) /\ forall i, (i < length kl)%nat -> fb (datum m) (ext m) B (-1) 1 (g i) /\ fb (datum m) (ext m) B (-1) 1 (h i) /\ fb (datum m) (ext m) B (-1) 1 (l i) /\
      ngt (ext m) (l i) (g i) /\ ngt (ext m) (g i) (h i).
Proof.
  destruct (@Rsi_any _ (srRsi p) kl Hx) as (g & E). 
  assert (W : forall i, (i < length kl)%nat -> within m 0 100 (g i)).
  { intros i Hi. apply (@C42_range m (srRsi p) kl _ i (mkRow (tm kl i) (g i)) Hr Hc E). rewrite tab_nth_error by exact Hi. reflexivity. }
  assert (PF : Forall (price m) (tab (length kl) g)).
  { rewrite Forall_forall. intros x Hi. apply tab_In in Hi as (i & Hi & <-). apply within_price. now apply W. }
  destruct (@StochRsi_T _ (ord_laws m) p kl g Hs E (price_no_nan PF)) as (h & l & Hh & Hl & ES).
  destruct (scale_of PF) as (B & SL & HB). exists g, h, l, B. repeat (split; [assumption|]). intros i Hi.
  assert (Gd : forall x, fb (datum m) (ext m) B (-1) 1 x -> goodv m x) by (intros x (H1 & r & H2 & _); split; [exact H1|rewrite H2; discriminate]).
  assert (GF : Forall (goodv m) (tab (length kl) g)) by (eapply Forall_impl; [|exact HB]; auto).
  destruct (max_facts (Forall_window i (Z.to_nat (srStoch p)) GF) (Hh i Hi)) as (U1 & U2 & ux & U3 & U4).
  destruct (min_facts (Forall_window i (Z.to_nat (srStoch p)) GF) (Hl i Hi)) as (L1 & L2 & lx & L3 & L4).
  assert (IG : In (g i) (window (tab (length kl) g) i (Z.to_nat (srStoch p)))) by (apply in_window; [lia|]; now rewrite tab_nth_error).
  rewrite Forall_forall in HB. split; [apply HB, tab_In; eauto|]. split; [|split; [|split]]; auto.
  - destruct (HB ux (window_In _ _ _ _ U3)) as (_ & r & R1 & R2). split; [apply U1|]. exists r. split; [|exact R2]. transitivity (ext m ux); [exact U4|exact R1].
  - destruct (HB lx (window_In _ _ _ _ L3)) as (_ & r & R1 & R2). split; [apply L1|]. exists r. split; [|exact R2]. transitivity (ext m lx); [exact L4|exact R1].
Qed.
(** K is the exponential average of the position of the RSI in its window, D the exponential average of K. *)
Theorem C76_formula : exists (rows : list (row KD)) (rsi : list (row F)) (pos : list F),
    rows_of I_StochRsi p kl = Ok rows /\ rows_of I_Rsi (srRsi p) kl = Ok rsi /\
    length pos = length kl /\
    (forall i r, nth_error rsi i = Some r -> exists lo hi, 
       max_of hi (window (column (fun v => v) rsi) i (Z.to_nat (srStoch p))) /\
       min_of lo (window (column (fun v => v) rsi) i (Z.to_nat (srStoch p))) /\
       nth_error pos i = Some (position_in lo hi (rVal r))) /\
    ema_of (srK p) pos (column (fun v => kdK v) rows) /\
    ema_of (srD p) (column (fun v => kdK v) rows) (column (fun v => kdD v) rows).
Proof.
  destruct sr_facts as (g & h & l & B & E & Hh & Hl & ES & SL & HB).
  eexists _, _, (tab (length kl) (stoK g h l)). split; [exact ES|]. split; [exact E|]. split; [apply tab_length|]. split; [|split].
  - intros i r Hi. apply tab_some in Hi as [Hi ->]. exists (l i), (h i). rewrite column_T. cbn [rVal]. split; [now apply Hh|]. split; [now apply Hl|].
    rewrite tab_nth_error by exact Hi. unfold stoK, position_in. rewrite ratio_clean.
    pose proof (rl_A (rnd_laws m)) as A. destruct (HB i Hi) as (_ & _ & (D & _) & _). rewrite !(al_minus A) by exact D. reflexivity.
  - rewrite column_T. apply ema_of_T.
  - rewrite !column_T. apply ema_of_T.
Qed.
(** Both are numbers between 0 and 100. *)
Theorem C76_range : 1 <= srK p <= 2 ^ 46 -> 1 <= srD p <= 2 ^ 46 ->
  exists rows, rows_of I_StochRsi p kl = Ok rows /\ length rows = length kl /\
    Forall (fun r => within m 0 100 (kdK (rVal r)) /\ within m 0 100 (kdD (rVal r))) rows.
Proof.
  intros HK HD. destruct sr_facts as (g & h & l & B & E & Hh & Hl & ES & SL & HB).
  eexists. split; [exact ES|]. split; [apply tab_length|]. rewrite Forall_forall. intros r Hi. apply tab_In in Hi as (i & Hi & <-). cbn [rVal kdK kdD].
  pose proof (rnd_laws m) as RL.
  assert (QK : forall j, (j <= i)%nat -> fb (datum m) (ext m) 1 0 100 (emaF (srK p) (stoK g h l) j)).
  { intros j Hj. apply (@emaF_fb m 1 (scale_1 RL)); [lia..|]. intros k Hk. destruct (HB k ltac:(lia)) as (B1 & B2 & B3 & B4 & B5).
    exact (@stoK_fb m B _ _ _ B1 B2 B3 SL B4 B5). }
  split; apply (@fb1_within m 0 100); [apply QK; lia|]. apply (@emaF_fb m 1 (scale_1 RL)); [lia..|]. exact QK.
Qed.
End C76.
Print Assumptions C76_formula.
Print Assumptions C76_range.
(** The calculation panics exactly when the RSI inside it does (C42), for a window of at least one bar. *)
Theorem C76_panics_iff (m : Model) (p : StochRsiP) (kl : list (Candle (N := num m))) :
  Forall (price m) (closes kl) -> srRsi p <= 2 ^ 51 -> 1 <= srStoch p ->
  rows_of I_StochRsi p kl = Panic <-> 2 <= srRsi p /\ srRsi p = len kl.
Proof.
  intros Hc Hr Hs. split.
  - intros E. destruct (Z_lt_le_dec (srRsi p) 2); [|destruct (Z.eq_dec (srRsi p) (len kl)); [lia|]];
      (destruct (@sr_facts m p kl Hc Hr Hs ltac:(lia)) as (g & h & lw & B & _ & _ & _ & ES & _); rewrite ES in E; discriminate).
  - intros H. unfold rows_of, GetData, I_StochRsi. cbn [len length Z.of_nat Z.eqb Calculation Val Param]. unfold stochrsi_calc.
    apply (@C42_panics_iff (num m) (srRsi p) kl) in H. rewrite H. reflexivity.
Qed.
Print Assumptions C76_panics_iff.
Example C76_hyp : rmap (map (fun r => (kdK (rVal r) ==~ ofZ 100, kdK (rVal r) ==~ ofZ 50))) (rows_of (N := EX) I_StochRsi (mkStochRsiP 3 3 2 3) (flat [10; 13; 12; 13])) =
  Ok [(false, false); (false, false); (false, true); (false, false)].
Proof. vm_compute. reflexivity. Qed.
