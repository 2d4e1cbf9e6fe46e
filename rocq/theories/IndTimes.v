(** * IndTimes: row i carries the time of candle i. *)
From Verif Require Import Base Num Containers Ta TaTools TaElem TaStat TaCausal Regression Sides Klines
  KlineProofs3 CountLaw IndBase IndTrend IndChannel IndVolume IndOsc IndAll IndTools IndCausal IndSides SpecInd IndLife.
Set Implicit Arguments.

Section T.
Context {N : Num}.
Implicit Types I : Indicator (N := N).

Lemma get_map A B (f : A -> B) l i : get (map f l) i = (x <- get l i ;; Ok (f x)).
Proof.
  unfold get. destruct (i <? 0); [reflexivity|]. rewrite nth_error_map.
  destruct (nth_error l (Z.to_nat i)); reflexivity.
Qed.
Lemma time_in_map (kl : list Candle) i : time_in (map cTime kl) i = time_at kl i.
Proof. unfold time_in, time_at. rewrite get_map. destruct (get kl i); reflexivity. Qed.
Lemma time_at_inv (kl : list Candle) i t c : time_at kl (Z.of_nat i) = Ok t -> nth_error kl i = Some c -> t = unix (cTime c).
Proof.
  unfold time_at. intros E H. apply bind_ok in E as (x & Ex & E). injection E as <-.
  apply get_ok_iff in Ex as [_ Ex]. rewrite Nat2Z.id in Ex. congruence.
Qed.

Definition St {A} (lo : nat) (kl : list Candle) (r r' : list (row A)) : Prop :=
  forall i x c, (lo <= i)%nat -> nth_error r i = Some x -> nth_error kl i = Some c -> rTime x = unix (cTime c).
Lemma append_stamp A (kl : list Candle) tm k f (m2 : res (list (row A))) : k = Z.of_nat (length kl) ->
  (forall i, tm i = time_at kl i) -> resP (St 0 kl) (append_rows tm k f []) m2.
Proof.
  intros -> Ht r r' E _. apply append_rows_inv in E as (e & -> & He & H). intros i x c _ Hx Hc. cbn [app] in Hx.
  destruct (H _ _ Hx) as [T _]. rewrite Ht in T. exact (time_at_inv _ _ T Hc).
Qed.
Lemma make_stamp A (kl : list Candle) (z : A) s tm lo k f m2 : s = Z.of_nat (length kl) -> k = Z.of_nat (length kl) ->
  (forall i, tm i = time_at kl i) -> resP (St lo kl) (make_rows z s tm (Z.of_nat lo) k f) m2.
Proof.
  intros -> -> Ht r r' E _. destruct (Nat.le_gt_cases lo (length kl)) as [Hl|Hl].
  - apply make_rows_inv in E as (L & _ & H); [|exact Hl]. intros i x c Hi Hx Hc.
    destruct (H i x Hi Hx) as [T _]. rewrite Ht in T. exact (time_at_inv _ _ T Hc).
  - intros i x c Hi Hx Hc. assert (i < length kl)%nat by (apply nth_error_Some; congruence). lia.
Qed.
Ltac ssteps := repeat (cbn beta iota zeta; eapply resP_bind; [solve [eauto 4 using Rlist_self, Rlist_map with pr]|intros ? ? ?]).
Ltac sfin := cbn beta iota zeta; first
  [ apply append_stamp; [rlen|intros; rewrite ?time_in_map; reflexivity]
  | apply (@make_stamp _ _ _ _ _ 0); [rlen|rlen|intros; rewrite ?time_in_map; reflexivity]
  | apply (@make_stamp _ _ _ _ _ 1); [rlen|rlen|intros; rewrite ?time_in_map; reflexivity] ].
Ltac sohlc kl :=
  pose proof (Rlist_self kl) as HK;
  pose proof (Rlist_map (@cOpen _) HK) as HO; pose proof (Rlist_map (@cHigh _) HK) as HH;
  pose proof (Rlist_map (@cLow _) HK) as HL; pose proof (Rlist_map (@cClose _) HK) as HC;
  pose proof (Rlist_map (@cVolume _) HK) as HV;  pose proof (Rlist_map (@cBull _) HK) as HB; pose proof (Rlist_map (@cTime _) HK) as HT;
  rewrite ?GetOHLC_spec; cbn [bind oOpen oHigh oLow oClose oVolume oBull oTime].
Definition stamps I lo : Prop := forall p kl, fits I (length kl) -> resP (St lo kl) (rows_of I p kl) (rows_of I p kl).

Lemma ad_stamp kl : resP (St 0 kl) (ad_calc tt kl []) (ad_calc tt kl []).
Proof.
  intros r r' E _. unfold ad_calc in E. sohlc kl. rewrite GetOHLC_spec in E. cbn [bind oClose oHigh oLow oVolume] in E.
  rewrite make_len in E. cbn [bind] in E. rewrite map_length in E.
  apply bind_ok in E as ([a d] & E' & E). injection E as <-.
  apply (@for_inv_ok _ (fun j q => Z.of_nat (length (snd q)) = j /\ St 0 kl (snd q) (snd q))) in E'.
  - apply E'.
  - apply len_nonneg.
  - split; [reflexivity|]. intros [|i] x c _ Hx; discriminate Hx.
  - intros j [a1 q] [a2 q'] Hj [Hq HS] Eq. cbn [snd] in *.
    do 7 (apply bind_ok in Eq as (? & _ & Eq)). apply bind_ok in Eq as (t & Et & Eq).
    apply bind_ok in Eq as (? & _ & Eq). injection Eq; intros; subst.
    rewrite app_length. cbn [length]. split; [lia|]. intros i y c _ Hx Hc.
    destruct (Nat.lt_ge_cases i (length q)).
    + rewrite nth_error_app1 in Hx by lia. exact (HS i y c ltac:(lia) Hx Hc).
    + rewrite nth_error_app2 in Hx by lia. destruct (i - length q)%nat as [|w] eqn:Ew; [|destruct w; discriminate Hx].
      injection Hx as <-. cbn. replace (length q) with i in Et by lia. exact (time_at_inv _ _ Et Hc).
Qed.
Lemma obv_stamp kl : resP (St 0 kl) (obv_calc tt kl []) (obv_calc tt kl []).
Proof.
  intros r r' E _. unfold obv_calc in E. rewrite GetOHLC_spec in E. cbn [bind oClose oHigh oLow oVolume oTime] in E.
  apply (@for_inv_ok _ (fun j q => Z.of_nat (length q) = j /\ St 0 kl q q)) in E.
  - apply E.
  - apply len_nonneg.
  - split; [reflexivity|]. intros [|i] x c _ Hx; discriminate Hx.
  - intros j q q' Hj [Hq HS] Eq.
    apply bind_ok in Eq as (? & _ & Eq). apply bind_ok in Eq as (t & Et & Eq). injection Eq; intros; subst.
    rewrite time_in_map in Et. rewrite app_length. cbn [length]. split; [lia|]. intros i y c _ Hx Hc.
    destruct (Nat.lt_ge_cases i (length q)).
    + rewrite nth_error_app1 in Hx by lia. exact (HS i y c ltac:(lia) Hx Hc).
    + rewrite nth_error_app2 in Hx by lia. destruct (i - length q)%nat as [|w] eqn:Ew; [|destruct w; discriminate Hx].
      injection Hx as <-. cbn. replace (length q) with i in Et by lia. exact (time_at_inv _ _ Et Hc).
Qed.
(** a loop that writes row i with the time of candle i *)
Lemma loop_stamp A S (kl : list Candle) lo (body : Z -> S * list (row A) -> res (S * list (row A))) s0 r0 st r :
  length r0 = length kl -> (lo <= length kl)%nat ->
  (forall i s d s' d', body (Z.of_nat i) (s, d) = Ok (s', d') -> (i < length d)%nat ->
     exists y, rTime y = match nth_error kl i with Some c => unix (cTime c) | None => rTime y end /\ d' = upd d i y) ->
  for_ (Z.of_nat lo) (Z.of_nat (length kl)) body (s0, r0) = Ok (st, r) -> St lo kl r r.
Proof.
  intros Hl Hlo Hb E.
  apply (@for_inv_ok _ (fun j q => length (snd q) = length kl /\
    forall i x c, (lo <= i)%nat -> Z.of_nat i < j -> nth_error (snd q) i = Some x -> nth_error kl i = Some c -> rTime x = unix (cTime c))) in E.
  - destruct E as [_ E]. cbn [snd] in E. intros i x c Hi Hx Hc. apply (E i x c Hi); auto.
    assert (i < length kl)%nat by (apply nth_error_Some; congruence). lia.
  - lia.
  - cbn [snd]. split; [exact Hl|]. intros; lia.
  - intros j [s q] [s' q'] Hj [Hq HS] Eq. cbn [snd] in *.
    replace j with (Z.of_nat (Z.to_nat j)) in Eq by lia.
    destruct (Hb _ _ _ _ _ Eq ltac:(lia)) as (y & Hy & ->). rewrite upd_length. split; [exact Hq|].
    intros i x c Hi Hij Hx Hc. destruct (Nat.eq_dec i (Z.to_nat j)) as [->|Hne].
    + rewrite nth_error_upd_eq in Hx by lia. injection Hx as <-. rewrite Hc in Hy. exact Hy.
    + rewrite nth_error_upd_ne in Hx by lia. apply (HS i x c); auto. lia.
Qed.
Lemma upd_upd A (l : list A) i x y : upd (upd l i x) i y = upd l i y.
Proof. revert i; induction l as [|a l IH]; intros [|i]; cbn; auto. now rewrite IH. Qed.
Lemma rev_stamp kl : resP (St 0 kl) (reversal_calc tt kl []) (reversal_calc tt kl []).
Proof.
  intros r r' E _. unfold reversal_calc in E. rewrite GetOHLC_spec in E. cbn [bind oClose oHigh oLow oVolume] in E.
  rewrite make_len in E. cbn [bind] in E. apply bind_ok in E as ([[a b] d] & E' & E). injection E as <-.
  unfold len in E'. apply (@loop_stamp _ _ kl 0) in E'; [exact E'|apply repeat_length|lia|].
  intros i [u v] q [u' v'] q' Eb Hi.
  do 3 (apply bind_ok in Eb as (? & _ & Eb)). apply bind_ok in Eb as (t & Et & Eb).
  assert (Ht : forall s, rTime (mkRow t (s : Side)) = match nth_error kl i with Some c => unix (cTime c) | None => t end).
  { intros s. cbn. destruct (nth_error kl i) as [c|] eqn:Ec; [|reflexivity]. exact (time_at_inv _ _ Et Ec). }
  apply bind_ok in Eb as (q1 & E1 & Eb). apply set_inv in E1 as [_ ->]. rewrite Nat2Z.id in *.
  destruct (Z.of_nat i <? 4).
  { injection Eb; intros; subst. eexists; split; [|reflexivity]. apply Ht. }
  do 4 (apply bind_ok in Eb as (? & _ & Eb)). cbn zeta in Eb.
  apply bind_ok in Eb as (q2 & E2 & Eb). do 3 (apply bind_ok in Eb as (? & _ & Eb)).
  apply bind_ok in Eb as (q3 & E3 & Eb). injection Eb; intros; subst.
  assert (X : forall (c : bool) s (q q1 : list (row Side)) y, rTime y = match nth_error kl i with Some c => unix (cTime c) | None => t end ->
     (if c then set (upd q i y) (Z.of_nat i) (mkRow t s) else Ok (upd q i y)) = Ok q1 ->
     exists y' : row Side, rTime y' = match nth_error kl i with Some c => unix (cTime c) | None => t end /\ q1 = upd q i y').
  { intros c s q0 q4 y Hy Ex. destruct c.
    - apply set_inv in Ex as [_ ->]. rewrite Nat2Z.id, upd_upd. exists (mkRow t s). split; [apply Ht|reflexivity].
    - injection Ex as <-. eauto. }
  apply X in E2 as (y2 & Hy2 & ->); [|apply Ht]. apply X in E3 as (y3 & Hy3 & ->); [|exact Hy2].
  exists y3. split; [|reflexivity]. destruct (nth_error kl i); auto.
Qed.
Lemma bp_stamp p kl : resP (St 1 kl) (bp_calc p kl []) (bp_calc p kl []).
Proof.
  intros r r' E _. unfold bp_calc in E. rewrite GetOHLC_spec in E. cbn [bind oOpen oClose oHigh oLow oVolume oTime] in E.
  rewrite make_len in E. cbn [bind] in E. apply bind_ok in E as ([st d] & E' & E). injection E as <-.
  unfold len in E'. rewrite map_length in E'. destruct (Nat.eq_dec (length kl) 0) as [H0|H0].
  { intros i x c _ _ Hc. assert (i < length kl)%nat by (apply nth_error_Some; congruence). lia. }
  apply (@loop_stamp _ _ kl 1) in E'; [exact E'|apply repeat_length|lia|].
  intros i s q s' q' Eb Hi. apply bind_ok in Eb as (t & Et & Eb). do 8 (apply bind_ok in Eb as (? & _ & Eb)).
  apply bind_ok in Eb as ([[? ?] ?] & _ & Eb). apply bind_ok in Eb as (q2 & E2 & Eb). injection Eb; intros; subst.
  apply set_inv in E2 as [_ ->]. rewrite Nat2Z.id. eexists. split; [|reflexivity]. cbn.
  rewrite time_in_map in Et. destruct (nth_error kl i) as [c|] eqn:Ec; [|reflexivity]. exact (time_at_inv _ _ Et Ec).
Qed.

Ltac calcs := unfold rows_of, GetData; cbn [len length Z.of_nat Z.eqb Calculation
   I_Ma I_Rsi I_StochRsi I_Cci I_AiCoinCCI I_Vortex I_StochasticHeat I_Donchian I_Keltner I_Ulcer
   I_AD I_CMF I_EMV I_Force I_MFI I_NVI I_Obv I_VPT I_Vwma I_AO I_Chaikin I_Ichimoku I_PPO I_Projection I_Stoch I_Williams
   I_Sma I_Ema I_Dema I_Macd I_Kdj I_Atr I_LRC I_Reversal
   I_BreakoutProbability I_SuperTrend I_PPST I_UTBot I_TraderXO I_EMAVegas I_ADX I_Boll I_APO I_Camarilla I_VOsc].
Hint Resolve mid_line_R atr_tr_R boll_md_R mfi_typical_R nvi_R williams_R vortex_R kdj_kd_R smoothValues_R rsi_R supertrend_R : pr.

Lemma append_stamps I : In I append_style -> stamps I 0.
Proof.
  intros H. unfold append_style in H. cbn [In] in H.
  repeat (destruct H as [<-|H]); try (destruct H); intros p kl Hf; cbn in p; calcs;
  try (destruct p; first [apply ad_stamp|apply obv_stamp]; fail);
  unfold ma_calc, rsi_calc, cci_calc, aicoin_calc, vortex_calc, donchian_calc,
      ulcer_calc, cmf_calc, emv_calc, force_calc, mfi_calc, nvi_calc, vwma_calc,
      ao_calc, ichi_calc, ppo_calc, williams_calc; sohlc kl;
  try (ssteps; sfin; fail).
  - unfold stochrsi_calc. eapply resP_bind; [exact (Rsi_R _ HK)|intros ? ? ?]. ssteps. sfin.
  - unfold heat_calc. rewrite GetOHLC_spec; cbn [bind oClose oHigh oLow].
    eapply resP_bind; [apply heat_R; [reflexivity|reflexivity|eassumption..]|intros [f s] [f' s'] [X Y]].
    cbn [fst snd] in *. apply append_stamp; [reflexivity|intros; reflexivity].
  - unfold keltner_calc. eapply resP_bind; [exact (AtrI_R _ HK)|intros ? ? ?]. ssteps.
    eapply resP_bind; [exact (EmaI_R _ HK)|intros ? ? ?]. ssteps. sfin.
  - unfold vpt_calc. rewrite GetOHLC_spec; cbn [bind oClose oVolume].
    eapply resP_bind; [apply resP_refl|intros c0 ? <-].
    eapply resP_bind; [apply Shift_R; exact HC|intros ? ? ?]. ssteps. sfin.
  - unfold chaikin_calc. eapply resP_bind; [exact (AD_R HK)|intros ? ? ?]. ssteps. sfin.
  - destruct (Hf eq_refl) as [HCL Hb]. unfold proj_calc. rewrite GetOHLC_spec; cbn [bind oClose oVolume oHigh oLow].
    rewrite (Rlist_len HC). rewrite !GenerateNumbers_tab by (auto; lia). cbn [bind].
    pose proof (tab_R (fun i => ofZ 0 +~ ofZ 1 *~ ofZ (Z.of_nat i)) (le_n (length kl))) as HX.
    eapply resP_bind; [apply MLS_R; eassumption|intros [mh ?] [mh' ?] Hmh]. cbn [fst] in Hmh.
    eapply resP_bind; [apply MLS_R; eassumption|intros [ml ?] [ml' ?] Hml]. cbn [fst] in Hml. ssteps. sfin.
  - unfold stoch_calc. rewrite GetOHLC_spec; cbn [bind oClose oVolume oHigh oLow].
    eapply resP_bind; [apply Stochastic_R; eassumption|intros [k d] [k' d'] [Hk Hd]]. cbn [fst snd] in *. sfin.
Qed.
Definition late_start I : Prop := I = I_PPST \/ I = I_UTBot \/ I = I_BreakoutProbability.
Lemma make_stamps I : In I make_style -> stamps I 1 /\ (~ late_start I -> stamps I 0).
Proof.
  intros H. assert (G : stamps I 0 -> stamps I 1 /\ (~ late_start I -> stamps I 0)).
  { intros S0. split; [|auto]. intros p kl Hf r r' E E' i x c Hi. apply (S0 p kl Hf r r' E E'). lia. }
  unfold make_style in H. cbn [In] in H. unfold late_start.
  repeat (destruct H as [<-|H]); try (destruct H);
  first [ (split; [|tauto]) ; intros p kl Hf; cbn in p; calcs;
          first [apply bp_stamp
            | unfold ppst_calc, utbot_calc, ppsupertrend, utbot; sohlc kl;
              eapply resP_bind with (R := Rlist (length kl) (length kl));
              [ssteps; rmake; (apply scan_R; [eassumption|rlen|rlen|]); intros; rget
              |intros ? ? ?; sfin] ]; fail
        | apply G; intros p kl Hf; cbn in p; calcs;
          try (destruct p; apply rev_stamp; fail);
          unfold sma_calc, ema_calc, dema_calc, macd_calc, kdj_calc, atr_calc, traderxo_calc, vegas_calc,
            apo_calc, cam_calc, cam_calc0, vosc_calc; sohlc kl; try (ssteps; sfin; fail) ].
  - unfold lrc_calc. rewrite GetOHLC_spec; cbn [bind oOpen oClose oVolume oHigh oLow oTime]. ssteps.
    eapply resP_bind with (R := Rlist (length kl) (length kl)); [destruct (lrSMA p); eauto with pr|intros ? ? ?]. sfin.
  - unfold supertrend_calc.
    rewrite GetOHLC_spec; cbn [bind].
    eapply resP_bind; [apply HL2_R; eassumption|intros ? ? ?].
    eapply resP_bind; [apply supertrend_R; [|eassumption]; unfold ROHLC; cbn; auto 10|intros ? ? ?].
    cbn [oClose oTime]. sfin.
  - unfold adx_calc. rewrite GetOHLC_spec; cbn [bind oOpen oClose oVolume oHigh oLow oTime].
    eapply resP_bind; [apply adx_dm_R; eassumption|intros [[a b] c] [[a' b'] c'] (A1 & A2 & A3)]. cbn [fst snd] in *.
    ssteps.
    eapply resP_bind; [apply adx_lines_R; [eapply Rlist_le; eassumption|rlen|rlen|eassumption..]
      |intros [[d e] f] [[d' e'] f'] (B1 & B2 & B3)]. cbn [fst snd] in *. ssteps. sfin.
  - unfold boll_calc. eapply resP_bind; [exact (SmaI_R _ HK)|intros ? ? ?]. ssteps. sfin.
Qed.
(** the rows the three late starters leave out keep the zero time *)
Lemma make_first A (z : A) (kl : list Candle) s tm k f r : s = Z.of_nat (length kl) -> k = Z.of_nat (length kl) -> kl <> [] ->
  make_rows z s tm 1 k f = Ok r -> nth_error r 0 = Some (mkRow zero_time z).
Proof.
  intros -> -> Hk E. apply make_rows_inv with (lo := 1%nat) in E as (_ & H & _); [apply H; lia|].
  destruct kl; [congruence|cbn; lia].
Qed.
Lemma late_zero I p kl r : late_start I -> kl <> [] -> rows_of I p kl = Ok r ->
  exists x, nth_error r 0 = Some x /\ rTime x = zero_time.
Proof.
  intros [-> | [-> | ->]] Hk; cbn in p; calcs; intros E.
  - unfold ppst_calc in E. rewrite GetOHLC_spec in E. cbn [bind oClose oTime] in E.
    apply bind_ok in E as (? & _ & E). apply make_first with (kl := kl) in E; [eauto| | |exact Hk];
      unfold len; now rewrite map_length.
  - unfold utbot_calc in E. rewrite GetOHLC_spec in E. cbn [bind oClose oTime] in E.
    apply bind_ok in E as (? & _ & E). apply make_first with (kl := kl) in E; [eauto| | |exact Hk];
      unfold len; now rewrite map_length.
  - unfold bp_calc in E. rewrite GetOHLC_spec in E. cbn [bind oClose oTime] in E.
    rewrite make_len in E. cbn [bind] in E. apply bind_ok in E as ([? d] & E' & E). injection E as <-.
    apply (@for_inv_ok _ (fun j q => nth_error (snd q) 0 = Some (mkRow zero_time (mkBPV [] fzero fzero)))) in E'.
    + cbn in E'. eauto.
    + unfold len. rewrite map_length. destruct kl; [congruence|cbn; lia].
    + cbn [snd]. rewrite map_length. destruct kl; [congruence|reflexivity].
    + intros j [? q] [? q'] Hj Hq Eq. cbn [snd] in *. do 9 (apply bind_ok in Eq as (? & _ & Eq)).
      apply bind_ok in Eq as ([[? ?] ?] & _ & Eq). apply bind_ok in Eq as (? & Es & Eq). injection Eq; intros; subst.
      apply set_inv in Es as [_ ->]. rewrite nth_error_upd_ne by lia. exact Hq.
Qed.
End T.
