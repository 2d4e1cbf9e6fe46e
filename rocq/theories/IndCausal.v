(** * IndCausal: one row per candle, and later candles never change earlier rows. *)
From Verif Require Import Base Num Containers Ta TaTools TaElem TaStat TaCausal Regression Sides Klines
  KlineProofs3 IndBase IndTrend IndChannel IndVolume IndOsc IndTools.
Set Implicit Arguments.

Ltac rget := repeat (cbn beta iota zeta; first
  [ apply resP_refl
  | eapply Rlist_getP; eassumption
  | apply resP_ok; reflexivity
  | eapply resP_bind; [eapply Rlist_getP; eassumption|intros ? ? <-]
  | match goal with x : (_ * _)%type |- _ => destruct x end ]).
Ltac rohlc := match goal with H : Rlist _ _ ?kl ?kl' |- resP _ (bind (GetOHLC ?kl) _) (bind (GetOHLC ?kl') _) =>
  eapply resP_bind; [apply GetOHLC_R; exact H
  |intros o o' (HO & HH & HL & HC & HV & HB & HT)] end.
Ltac rstep := eapply resP_bind; [solve [eauto 3 with pr]|intros ? ? ?].
Ltac rsteps := repeat (cbn beta iota zeta; rstep).
Ltac rlen := first [eapply Rlist_len; eassumption | eapply Rlist_len'; eassumption | assumption].
Ltac rtime := intros; first [eapply time_at_R; eassumption | eapply time_in_R; eassumption].
Ltac rrows := cbn beta iota zeta; first
  [ apply append_rows_R; [eapply Rlist_le; eassumption|rlen|rlen|rtime|intros; rget]
  | apply make_rows_R; [eapply Rlist_le; eassumption|rlen|rlen|rlen|rlen|lia|rtime|intros; rget] ].
Ltac rauto := intros; rohlc; rsteps; rrows.

(** Loops over a result slice [r] and further state [s], see TaTools.causal_from. *)
Lemma from_R S A n m lo k k' b1 b2 (s0 : S) (r0 r0' : list A) :
  Rlist n m r0 r0' -> k = Z.of_nat n -> k' = Z.of_nat m ->
  (forall i s r r', lo <= i < Z.of_nat n -> Rlist n m r r' ->
     resP (fun x y => fst x = fst y /\ Rlist n m (snd x) (snd y)) (b1 i (s, r)) (b2 i (s, r'))) ->
  (forall i s r x (q : list A), lo <= i -> Z.of_nat n <= i -> Rlist n m q r -> b2 i (s, r) = Ok x ->
     Rlist n m q (snd x)) ->
  resP (fun x y => Rlist n m (snd x) (snd y)) (for_ lo k b1 (s0, r0)) (for_ lo k' b2 (s0, r0')).
Proof.
  intros Hr -> -> Hstep Htail. assert (Hnm : (n <= m)%nat) by apply Hr.
  eapply resP_for with
    (R := fun i x y => (i <= Z.of_nat n -> fst x = fst y) /\ Rlist n m (snd x) (snd y)).
  - lia.
  - split; [reflexivity|]. exact Hr.
  - intros i [s r] [t r'] Hi [H1 H2]. cbn [fst snd] in *. rewrite <- H1 by lia.
    eapply resP_mono; [|apply Hstep; [lia|exact H2]].
    intros x y [Hx Hy]; split; auto.
  - intros i x y Hi [_ H]. exact H.
  - intros i x [t r'] y Hl Hi H E. eapply Htail; [exact Hl| |exact H|exact E]. lia.
Qed.
Lemma from1_R A n m lo k k' (b1 b2 : Z -> list A -> res (list A)) r0 r0' :
  Rlist n m r0 r0' -> k = Z.of_nat n -> k' = Z.of_nat m ->
  (forall i r r', lo <= i < Z.of_nat n -> Rlist n m r r' -> resP (Rlist n m) (b1 i r) (b2 i r')) ->
  (forall i r x (q : list A), lo <= i -> Z.of_nat n <= i -> Rlist n m q r -> b2 i r = Ok x -> Rlist n m q x) ->
  resP (Rlist n m) (for_ lo k b1 r0) (for_ lo k' b2 r0').
Proof.
  intros Hr -> -> Hstep Htail. assert (Hnm : (n <= m)%nat) by apply Hr.
  eapply resP_for with (R := fun i x y => Rlist n m x y); [lia|exact Hr|exact Hstep|auto|].
  intros i x y y' Hl Hi H E. eapply Htail; [exact Hl| |exact H|exact E]. lia.
Qed.
Ltac rtail := intros; linv; cbn [snd]; repeat
  match goal with x : (_ * _)%type |- _ => destruct x end; linv; cbn [snd] in *; subst;
  try assumption; repeat first [assumption | eapply Rlist_tail; [|eassumption..]].
Lemma make_R A (z : A) n m k k' : (n <= m)%nat -> k = Z.of_nat n -> k' = Z.of_nat m ->
  resP (Rlist n m) (make z k) (make z k').
Proof.
  intros H -> ->. rewrite !make_ok by lia. rewrite !Nat2Z.id. apply resP_ok. now apply Rlist_init.
Qed.
Ltac rmake := eapply resP_bind; [apply make_R; [eapply Rlist_le; eassumption|rlen|rlen]|intros ? ? ?].
(** steps inside a loop body *)
Ltac rfirst :=
  match goal with
  | |- resP eq ?m ?m => apply resP_refl
  | |- resP _ (if ?c then _ else _) (if ?c then _ else _) => destruct c eqn:?
  | x : (_ * _)%type |- _ => destruct x
  | |- resP (Rlist ?n ?m) (set ?r ?k _) (set ?r' ?k _) =>
      apply Rlist_set; [assumption|reflexivity]
  | H : Rlist ?n ?m ?r ?r' |- resP _ (bind (set ?r ?k _) _) (bind (set ?r' ?k _) _) =>
      apply resP_bind with (R := Rlist n m); [|intros ? ? ?]
  | |- resP _ (get _ _) (get _ _) => eapply Rlist_getP; eassumption
  | |- resP (fun x y => fst x = fst y /\ _) (Ok _) (Ok _) => apply resP_ok; split; cbn [fst snd]; auto
  | |- resP (Rlist _ _) (Ok _) (Ok _) => apply resP_ok; assumption
  | |- resP eq (Ok _) (Ok _) => apply resP_ok; reflexivity
  | H : Rlist _ _ _ _ |- resP eq (time_at _ _) (time_at _ _) => eapply time_at_R; eassumption
  | H : Rlist _ _ _ _ |- resP eq (time_in _ _) (time_in _ _) => eapply time_in_R; eassumption
  | |- resP _ (let '(_, _) := ?x in _) (let '(_, _) := ?x in _) => destruct x
  | |- resP _ (bind (if ?c then set _ _ _ else _) _) (bind (if ?c then _ else _) _) => destruct c; cbn [bind]
  | |- resP _ (bind _ _) (bind _ _) => apply resP_bind with (R := eq); [|intros ? ? <-]
  end.
Ltac rbody := repeat (cbn beta iota zeta; rfirst).
Ltac rloop := apply from_R; [eassumption|rlen|rlen|intros; rbody|rtail].
Ltac rloop1 := apply from1_R; [eassumption|rlen|rlen|intros; rbody|rtail].
Ltac rret := match goal with |- resP (Rlist ?n ?m) _ _ =>
   eapply resP_bind with (R := fun x y => Rlist n m (snd x) (snd y));
   [|intros [? ?] [? ?] HRet; cbn [snd] in HRet;
     repeat match goal with x : (_ * _)%type |- _ => destruct x end; apply resP_ok; exact HRet] end.


Section C.
Context {N : Num}.
Variables n m : nat.
Local Notation RL := (Rlist n m).
Notation cs := (list Candle).
Implicit Types kl : cs.

Lemma Ma_R p kl kl' : RL kl kl' -> resP RL (ma_calc p kl []) (ma_calc p kl' []).
Proof. unfold ma_calc. rauto. Qed.
Lemma SmaI_R p kl kl' : RL kl kl' -> resP RL (sma_calc p kl []) (sma_calc p kl' []).
Proof. unfold sma_calc. rauto. Qed.
Lemma EmaI_R p kl kl' : RL kl kl' -> resP RL (ema_calc p kl []) (ema_calc p kl' []).
Proof. unfold ema_calc. rauto. Qed.
Lemma DemaI_R p kl kl' : RL kl kl' -> resP RL (dema_calc p kl []) (dema_calc p kl' []).
Proof. unfold dema_calc. rauto. Qed.
Lemma Macd_R p kl kl' : RL kl kl' -> resP RL (macd_calc p kl []) (macd_calc p kl' []).
Proof. unfold macd_calc. rauto. Qed.
Lemma AiCoin_R p kl kl' : RL kl kl' -> resP RL (aicoin_calc p kl []) (aicoin_calc p kl' []).
Proof. unfold aicoin_calc. rauto. Qed.
Lemma Cci_R p kl kl' : RL kl kl' -> resP RL (cci_calc p kl []) (cci_calc p kl' []).
Proof. unfold cci_calc. intros H. rsteps. rrows. Qed.
Lemma TraderXO_R p kl kl' : RL kl kl' -> resP RL (traderxo_calc p kl []) (traderxo_calc p kl' []).
Proof. unfold traderxo_calc. rauto. Qed.
Lemma Vegas_R p kl kl' : RL kl kl' -> resP RL (vegas_calc p kl []) (vegas_calc p kl' []).
Proof. unfold vegas_calc. rauto. Qed.
Lemma LRC_R p kl kl' : RL kl kl' -> resP RL (lrc_calc p kl []) (lrc_calc p kl' []).
Proof.
  unfold lrc_calc. intros. rohlc. rsteps.
  apply resP_bind with (R := RL); [destruct (lrSMA p); eauto with pr|intros ? ? ?]. rrows.
Qed.
Lemma Donchian_R p kl kl' : RL kl kl' -> resP RL (donchian_calc p kl []) (donchian_calc p kl' []).
Proof. unfold donchian_calc. rauto. Qed.
Lemma Ulcer_R p kl kl' : RL kl kl' -> resP RL (ulcer_calc p kl []) (ulcer_calc p kl' []).
Proof. unfold ulcer_calc. rauto. Qed.
Lemma CMF_R p kl kl' : RL kl kl' -> resP RL (cmf_calc p kl []) (cmf_calc p kl' []).
Proof. unfold cmf_calc. rauto. Qed.
Lemma EMV_R p kl kl' : RL kl kl' -> resP RL (emv_calc p kl []) (emv_calc p kl' []).
Proof. unfold emv_calc. rauto. Qed.
Lemma Force_R p kl kl' : RL kl kl' -> resP RL (force_calc p kl []) (force_calc p kl' []).
Proof. unfold force_calc. rauto. Qed.
Lemma Vwma_R p kl kl' : RL kl kl' -> resP RL (vwma_calc p kl []) (vwma_calc p kl' []).
Proof. unfold vwma_calc. rauto. Qed.
Lemma VPT_R p kl kl' : RL kl kl' -> resP RL (vpt_calc p kl []) (vpt_calc p kl' []).
Proof.
  unfold vpt_calc. intros. rohlc.
  eapply resP_bind; [eapply Rlist_getP; exact HC|intros c0 ? <-].
  eapply resP_bind; [apply Shift_R; exact HC|intros ? ? ?]. rsteps. rrows.
Qed.
Lemma APO_R p kl kl' : RL kl kl' -> resP RL (apo_calc p kl []) (apo_calc p kl' []).
Proof. unfold apo_calc. rauto. Qed.
Lemma AO_R p kl kl' : RL kl kl' -> resP RL (ao_calc p kl []) (ao_calc p kl' []).
Proof. unfold ao_calc. rauto. Qed.
Lemma PPO_R p kl kl' : RL kl kl' -> resP RL (ppo_calc p kl []) (ppo_calc p kl' []).
Proof. unfold ppo_calc. rauto. Qed.
Lemma VOsc_R p kl kl' : RL kl kl' -> resP RL (vosc_calc p kl []) (vosc_calc p kl' []).
Proof. unfold vosc_calc. rauto. Qed.
Lemma Stoch_R p kl kl' : RL kl kl' -> resP RL (stoch_calc p kl []) (stoch_calc p kl' []).
Proof.
  unfold stoch_calc. intros. rohlc.
  eapply resP_bind; [apply Stochastic_R; eassumption|intros [k d] [k' d'] [Hk Hd]]. cbn [fst snd] in *. rrows.
Qed.

Lemma mid_line_R a b hs hs' ls ls' : RL hs hs' -> RL ls ls' -> resP RL (mid_line a b hs ls) (mid_line a b hs' ls').
Proof. intros. unfold mid_line. rsteps. eauto with pr. Qed.
#[local] Hint Resolve mid_line_R : pr.
Lemma Ichimoku_R p kl kl' : RL kl kl' -> resP RL (ichi_calc p kl []) (ichi_calc p kl' []).
Proof. unfold ichi_calc. rauto. Qed.
Lemma Cam_R p kl kl' : RL kl kl' -> resP RL (cam_calc0 p kl) (cam_calc0 p kl').
Proof. unfold cam_calc0. rauto. Qed.

Lemma atr_tr_R kl kl' hs hs' ls ls' cs cs' : RL kl kl' -> RL hs hs' -> RL ls ls' -> RL cs cs' ->
  resP RL (atr_tr kl hs ls cs) (atr_tr kl' hs' ls' cs').
Proof. intros. unfold atr_tr. rmake. rloop1. Qed.
#[local] Hint Resolve atr_tr_R : pr.
Lemma AtrI_R p kl kl' : RL kl kl' -> resP RL (atr_calc p kl []) (atr_calc p kl' []).
Proof. unfold atr_calc. rauto. Qed.
Lemma Keltner_R p kl kl' : RL kl kl' -> resP RL (keltner_calc p kl []) (keltner_calc p kl' []).
Proof.
  intros H. unfold keltner_calc. eapply resP_bind; [exact (AtrI_R p H)|intros ? ? ?]. rsteps.
  eapply resP_bind; [exact (EmaI_R p H)|intros ? ? ?]. rsteps. rrows.
Qed.
Lemma boll_md_R p kl kl' xs xs' : RL kl kl' -> RL xs xs' -> resP RL (boll_md p kl xs) (boll_md p kl' xs').
Proof. intros. unfold boll_md, range_. rmake. rret. rloop. Qed.
#[local] Hint Resolve boll_md_R : pr.
Lemma Boll_R p kl kl' : RL kl kl' -> resP RL (boll_calc p kl []) (boll_calc p kl' []).
Proof.
  intros H. unfold boll_calc. eapply resP_bind; [exact (SmaI_R _ H)|intros ? ? ?]. rsteps. rrows.
Qed.

Lemma mfi_typical_R hs hs' ls ls' cs cs' : RL hs hs' -> RL ls ls' -> RL cs cs' ->
  resP RL (mfi_typical hs ls cs) (mfi_typical hs' ls' cs').
Proof. intros. unfold mfi_typical. rmake. rloop1. Qed.
#[local] Hint Resolve mfi_typical_R : pr.
Lemma MFI_R p kl kl' : RL kl kl' -> resP RL (mfi_calc p kl []) (mfi_calc p kl' []).
Proof. unfold mfi_calc. rauto. Qed.
Lemma nvi_R cs cs' vs vs' : RL cs cs' -> RL vs vs' -> resP RL (nvi cs vs) (nvi cs' vs').
Proof. intros. unfold nvi. rmake. rloop1. Qed.
#[local] Hint Resolve nvi_R : pr.
Lemma NVI_R p kl kl' : RL kl kl' -> resP RL (nvi_calc p kl []) (nvi_calc p kl' []).
Proof. unfold nvi_calc. rauto. Qed.
Lemma williams_R p hs hs' ls ls' cs cs' : RL hs hs' -> RL ls ls' -> RL cs cs' ->
  resP RL (williams p hs ls cs) (williams p hs' ls' cs').
Proof. intros. unfold williams. rsteps. rmake. rloop1. Qed.
#[local] Hint Resolve williams_R : pr.
Lemma Williams_R p kl kl' : RL kl kl' -> resP RL (williams_calc p kl []) (williams_calc p kl' []).
Proof. unfold williams_calc. rauto. Qed.
Lemma vortex_R p hs hs' ls ls' cs cs' : RL hs hs' -> RL ls ls' -> RL cs cs' ->
  resP RL (vortex p hs ls cs) (vortex p hs' ls' cs').
Proof.
  intros. unfold vortex. rmake.
  do 3 (eapply resP_bind; [apply resP_refl|intros ? ? <-]). rret. rloop.
Qed.
#[local] Hint Resolve vortex_R : pr.
Lemma Vortex_R p kl kl' : RL kl kl' -> resP RL (vortex_calc p kl []) (vortex_calc p kl' []).
Proof. unfold vortex_calc. rauto. Qed.
Lemma kdj_kd_R p hs hs' ls ls' cs cs' : RL hs hs' -> RL ls ls' -> RL cs cs' ->
  resP RL (kdj_kd p ls hs cs) (kdj_kd p ls' hs' cs').
Proof. intros. unfold kdj_kd. rmake. rret. rloop. Qed.
#[local] Hint Resolve kdj_kd_R : pr.
Lemma Kdj_R p kl kl' : RL kl kl' -> resP RL (kdj_calc p kl []) (kdj_calc p kl' []).
Proof. unfold kdj_calc. rauto. Qed.
Lemma smoothValues_R p xs xs' : RL xs xs' -> resP RL (smoothValues xs p) (smoothValues xs' p).
Proof. intros. unfold smoothValues. rmake. rloop1. Qed.
#[local] Hint Resolve smoothValues_R : pr.
Lemma Reversal_R p kl kl' : RL kl kl' -> resP RL (reversal_calc p kl []) (reversal_calc p kl' []).
Proof. unfold reversal_calc. intros. rohlc. rmake. rret. rloop. Qed.
Lemma BP_R p kl kl' : RL kl kl' -> resP RL (bp_calc p kl []) (bp_calc p kl' []).
Proof. unfold bp_calc. intros. rohlc. rmake. rret. rloop. Qed.

(** *** RSI *)
Lemma rsi_length xs p r : rsi xs p = Ok r -> length r = length xs.
Proof.
  unfold rsi. intros E. rewrite make_len in E. cbn [bind] in E.
  destruct (len xs <? p); [injection E as <-; apply repeat_length|].
  destruct (p <? 2); [injection E as <-; apply repeat_length|].
  apply bind_ok in E as (prev & _ & E). apply bind_ok in E as ([[? ?] ?] & _ & E).
  apply bind_ok in E as (o & Ho & E). apply set_length in Ho. rewrite repeat_length in Ho.
  apply bind_ok in E as ([s q] & Hq & E). destruct s as [[? ?] ?]. injection E as <-.
  apply for_length2 in Hq; [cbn [snd] in Hq; congruence|].
  intros i [[[? ?] ?] ?] [[[? ?] ?] ?] Hb. apply bind_ok in Hb as (v & _ & Hb).
  destruct (rsi_add _ _ _) as [? ?]. apply bind_ok in Hb as (w & Hw & Hb). injection Hb; intros; subst.
  cbn [snd]. apply set_length in Hw. congruence.
Qed.
(** nothing is written below index [p] *)
Lemma rsi_low xs p r i : rsi xs p = Ok r -> (i < length xs)%nat -> Z.of_nat i < p -> nth_error r i = Some fzero.
Proof.
  unfold rsi. intros E Hi Hp. rewrite make_len in E. cbn [bind] in E.
  assert (Z0 : nth_error (repeat fzero (length xs)) i = Some fzero).
  { rewrite nth_error_nth' with (d := fzero) by (rewrite repeat_length; lia). f_equal. apply nth_repeat. }
  destruct (len xs <? p); [injection E as <-; exact Z0|].
  destruct (p <? 2); [injection E as <-; exact Z0|].
  apply bind_ok in E as (prev & _ & E). apply bind_ok in E as ([[? ?] ?] & _ & E).
  apply bind_ok in E as (o & Ho & E). apply set_inv in Ho as [Hr ->].
  apply bind_ok in E as ([s q] & Hq & E). destruct s as [[? ?] ?]. injection E as <-.
  unfold len in Hr. rewrite repeat_length in Hr.
  apply (@for_inv_ok _ (fun j q => nth_error (snd q) i = Some fzero)) in Hq.
  - exact Hq.
  - unfold len. lia.
  - cbn [snd]. rewrite nth_error_upd_ne by lia. exact Z0.
  - intros j [[[? ?] ?] ?] [[[? ?] ?] ?] Hj Hn Hb. apply bind_ok in Hb as (v & _ & Hb).
    destruct (rsi_add _ _ _) as [? ?]. apply bind_ok in Hb as (w & Hw & Hb). injection Hb; intros; subst.
    cbn [snd] in *. apply set_inv in Hw as [? ->]. rewrite nth_error_upd_ne by lia. exact Hn.
Qed.
Lemma rsi_R p xs xs' : RL xs xs' -> resP RL (rsi xs p) (rsi xs' p).
Proof.
  intros H. pose proof (Rlist_le H) as Hnm.
  destruct (Z.ltb_spec (Z.of_nat n) p) as [Hp|Hp].
  { intros r r' E E'. pose proof (rsi_length _ _ E). pose proof (rsi_length _ _ E').
    pose proof (Rlist_length H). pose proof (Rlist_length' H).
    repeat split; try congruence. intros i Hi.
    rewrite (rsi_low _ E), (rsi_low _ E') by lia. reflexivity. }
  unfold rsi. rmake. rewrite (Rlist_len H), (Rlist_len' H).
  destruct (Z.ltb_spec (Z.of_nat n) p); [lia|]. destruct (Z.ltb_spec (Z.of_nat m) p); [lia|].
  destruct (p <? 2); [apply resP_ok; assumption|].
  eapply resP_bind; [eapply Rlist_getP; exact H|intros prev ? <-].
  eapply resP_bind with (R := eq).
  { apply resP_for_eq. intros. rbody. }
  intros [[pr g] l] ? <-.
  apply resP_bind with (R := RL); [apply Rlist_set; [assumption|reflexivity]|intros ? ? ?].
  eapply resP_bind with (R := fun x y => Rlist n m (snd x) (snd y));
   [|intros [? ?] [? ?] HRet; cbn [snd] in HRet;
     repeat match goal with x : (_ * _)%type |- _ => destruct x end; apply resP_ok; exact HRet].
  apply from_R; [eassumption|reflexivity|reflexivity|intros; rbody|rtail].
Qed.
#[local] Hint Resolve rsi_R : pr.
Lemma Rsi_R p kl kl' : RL kl kl' -> resP RL (rsi_calc p kl []) (rsi_calc p kl' []).
Proof. unfold rsi_calc. rauto. Qed.
Lemma StochRsi_R p kl kl' : RL kl kl' -> resP RL (stochrsi_calc p kl []) (stochrsi_calc p kl' []).
Proof.
  intros H. unfold stochrsi_calc. eapply resP_bind; [exact (Rsi_R _ H)|intros ? ? ?]. rsteps. rrows.
Qed.

(** *** Stochastic heat *)
Lemma getStoch_R p cs cs' hs hs' ls ls' i : RL cs cs' -> RL hs hs' -> RL ls ls' ->
  resP RL (getStoch p cs hs ls i) (getStoch p cs' hs' ls' i).
Proof.
  intros. unfold getStoch.
  eapply resP_bind; [apply Stochastic_R; eassumption|intros [k d] [k' d'] [Hk Hd]]. cbn [fst snd] in *.
  destruct (_ =? _); [eauto with pr|]. destruct (_ =? _); [eauto with pr|].
  destruct (_ =? _); [eauto with pr|]. now apply resP_ok.
Qed.
Lemma heat_slow_R p xs xs' : RL xs xs' -> resP RL (heat_slow p xs) (heat_slow p xs').
Proof.
  intros. unfold heat_slow.
  destruct (_ =? _); [eauto with pr|]. destruct (_ =? _); eauto with pr.
Qed.
Lemma heat_slow_length p xs r : heat_slow p xs = Ok r -> length r = length xs.
Proof.
  unfold heat_slow. destruct (_ =? _); [apply Ema_length|]. destruct (_ =? _); [apply Sma_length|apply Wma_length].
Qed.
Lemma heat_lines_R p cs cs' hs hs' ls ls' : RL cs cs' -> RL hs hs' -> RL ls ls' ->
  resP (Forall2 RL) (heat_lines p cs hs ls) (heat_lines p cs' hs' ls').
Proof.
  intros. unfold heat_lines. eapply resP_for with (R := fun _ => Forall2 RL); [lia|constructor| |auto|lia].
  intros i s t Hi Hs. eapply resP_bind; [apply getStoch_R; eassumption|intros ? ? ?].
  apply resP_ok. apply Forall2_app; auto.
Qed.
Lemma heat_sum_R l l' i : Forall2 RL l l' -> resP eq (heat_sum l i) (heat_sum l' i).
Proof.
  intros H. unfold heat_sum. destruct H as [|x y l l' Hx H]; [apply resP_refl|].
  eapply resP_bind; [eapply Rlist_getP; eassumption|intros v ? <-].
  unfold range_. assert (El : len l = len l') by (unfold len; f_equal; clear -H; induction H; cbn; congruence).
  rewrite <- El. apply resP_for_eq. intros j s Hj.
  assert (G : resP RL (get l j) (get l' j)).
  { intros a b Ea Eb. apply get_ok_iff in Ea as [_ Ea]. apply get_ok_iff in Eb as [_ Eb].
    clear -H Ea Eb. revert Ea Eb. generalize (Z.to_nat j). induction H; intros [|k] Ea Eb; cbn in *; try discriminate.
    - congruence.
    - eauto. }
  eapply resP_bind; [exact G|intros a b Hab].
  eapply resP_bind; [eapply Rlist_getP; eassumption|intros w ? <-]. apply resP_refl.
Qed.
Lemma heat_R p k k' cs cs' hs hs' ls ls' : k = Z.of_nat n -> k' = Z.of_nat m ->
  RL cs cs' -> RL hs hs' -> RL ls ls' ->
  resP (fun a b => RL (fst a) (fst b) /\ RL (snd a) (snd b)) (heat p k cs hs ls) (heat p k' cs' hs' ls').
Proof.
  intros -> -> Hc Hh Hl. pose proof (Rlist_le Hc) as Hnm. unfold heat.
  eapply resP_bind; [apply heat_lines_R; eassumption|intros lines lines' HL].
  do 2 (eapply resP_bind; [apply make_R; [exact Hnm|reflexivity|reflexivity]|intros ? ? ?]).
  eapply resP_mono; [|eapply resP_for with
    (R := fun i x y => RL (fst x) (fst y) /\ RL (snd x) (snd y) /\ (0 < i -> heat_slow p (fst x) = Ok (snd x)))
    (Q := fun x y => RL (fst x) (fst y) /\ RL (snd x) (snd y) /\ (0 < Z.of_nat n -> heat_slow p (fst x) = Ok (snd x)))].
  - intros x y (X & Y & _); auto.
  - lia.
  - split; [assumption|]. split; [assumption|]. lia.
  - intros i [f s] [f' s'] Hi (X & Y & _). cbn [fst snd] in *.
    eapply resP_bind; [apply heat_sum_R; exact HL|intros v ? <-].
    eapply resP_bind; [apply Rlist_set; [exact X|reflexivity]|intros g g' Hg].
    intros ra rb Ea Eb. apply bind_ok in Ea as (u & Eu & Ea). apply bind_ok in Eb as (u' & Eu' & Eb).
    injection Ea as <-. injection Eb as <-. cbn [fst snd].
    split; [exact Hg|]. split; [exact (heat_slow_R p Hg Eu Eu')|]. auto.
  - intros i x y Hi (X & Y & Z0). repeat split; try apply X; try apply Y. intros. apply Z0. lia.
  - intros i [f s] [f' s'] [g t] _ Hi (X & Y & Z0) E. cbn [fst snd] in *.
    linv. assert (Hg : RL f g) by (eapply Rlist_tail; [exact X| |eassumption]; lia).
    split; [exact Hg|]. split; [|exact Z0]. destruct (Nat.eq_dec n 0) as [En|En].
    + pose proof (heat_slow_length _ _ H3). pose proof (Rlist_length' Hg). pose proof (Rlist_length Y).
      repeat split; try congruence. intros j Hj; lia.
    + exact (heat_slow_R p Hg (Z0 ltac:(lia)) H3).
Qed.
Lemma Heat_R p kl kl' : RL kl kl' -> resP RL (heat_calc p kl []) (heat_calc p kl' []).
Proof.
  unfold heat_calc. intros. rohlc.
  eapply resP_bind; [apply heat_R; [rlen|rlen|eassumption..]|intros [f s] [f' s'] [X Y]]. cbn [fst snd] in *. rrows.
Qed.

(** *** SuperTrend, PivotPointSuperTrend, UTBot *)
Lemma st_atr_R p o o' : ROHLC n m o o' -> resP RL (st_atr p o) (st_atr p o').
Proof.
  intros (HO & HH & HL & HC & HV & HB & HT). unfold st_atr. destruct (stChange p); [eauto with pr|].
  rsteps. eauto with pr.
Qed.
Lemma supertrend_R p o o' src src' : ROHLC n m o o' -> RL src src' ->
  resP RL (supertrend p o src) (supertrend p o' src').
Proof.
  intros Ho Hs. unfold supertrend. pose proof Ho as (HO & HH & HL & HC & HV & HB & HT). rmake.
  eapply resP_bind; [now apply st_atr_R|intros atr atr' Ha].
  eapply resP_bind with (R := RL).
  { rewrite (Rlist_len Hs), (Rlist_len' Hs). pose proof (Rlist_le Hs). destruct (Nat.eq_dec n 0) as [E0|E0].
    - intros r r' E E'. rewrite E0 in E. injection E as <-.
      destruct (0 <? Z.of_nat m).
      + pose proof (set_length _ _ _ E'). repeat split; [eapply Rlist_length; eassumption| |assumption|intros j Hj; lia].
        rewrite H1. eapply Rlist_length'; eassumption.
      + injection E' as <-. assumption.
    - destruct (Z.ltb_spec 0 (Z.of_nat n)); [|lia]. destruct (Z.ltb_spec 0 (Z.of_nat m)); [|lia].
      now apply Rlist_set. }
  intros z z' Hz. apply scan_R; [exact Hz|rlen|rlen|]. intros. rget.
Qed.
#[local] Hint Resolve supertrend_R : pr.
Lemma SuperTrend_R p kl kl' : RL kl kl' -> resP RL (supertrend_calc p kl []) (supertrend_calc p kl' []).
Proof.
  unfold supertrend_calc. intros.
  eapply resP_bind; [apply GetOHLC_R; eassumption|intros o o' Ho]. pose proof Ho as (HO & HH & HL & HC & HV & HB & HT).
  rsteps. rrows.
Qed.
Lemma PPST_R p kl kl' : RL kl kl' -> resP RL (ppst_calc p kl []) (ppst_calc p kl' []).
Proof.
  unfold ppst_calc, ppsupertrend. intros. rohlc.
  eapply resP_bind with (R := RL).
  - rsteps. rmake. apply scan_R; [eassumption|rlen|rlen|]. intros. rget.
  - intros ? ? ?. rrows.
Qed.
Lemma UTBot_R p kl kl' : RL kl kl' -> resP RL (utbot_calc p kl []) (utbot_calc p kl' []).
Proof.
  unfold utbot_calc, utbot. intros. rohlc.
  eapply resP_bind with (R := RL).
  - rsteps. rmake. apply scan_R; [eassumption|rlen|rlen|]. intros. rget.
  - intros ? ? ?. rrows.
Qed.

(** *** ADX *)
Definition RL3 (x y : list F * list F * list F) : Prop :=
  RL (fst (fst x)) (fst (fst y)) /\ RL (snd (fst x)) (snd (fst y)) /\ RL (snd x) (snd y).
Lemma adx_dm_R hs hs' ls ls' cs cs' : RL hs hs' -> RL ls ls' -> RL cs cs' ->
  resP RL3 (adx_dm hs ls cs) (adx_dm hs' ls' cs').
Proof.
  intros Hh Hl Hc. unfold adx_dm. pose proof (Rlist_le Hc). do 3 rmake. rewrite (Rlist_len Hc), (Rlist_len' Hc).
  eapply resP_for with (R := fun _ => RL3).
  - lia.
  - repeat split; cbn; try apply H0; try apply H1; apply H2.
  - intros i [[ua ub] uc] [[va vb] vc] Hi (A1 & A2 & A3). cbn [fst snd] in *. rbody.
    apply resP_ok. repeat split; cbn; try apply H3; try apply H4; apply H5.
  - auto.
  - intros i [[ua ub] uc] [[va vb] vc] [[wa wb] wc] Hl0 Hi (A1 & A2 & A3) E. cbn [fst snd] in *.
    linv. unfold RL3; cbn [fst snd].
    split; [|split]; (eapply Rlist_tail; [| |eassumption]; [eassumption|lia]).
Qed.
Lemma adx_lines_R p k k' ts ts' ps ps' ms ms' : (n <= m)%nat -> k = Z.of_nat n -> k' = Z.of_nat m ->
  RL ts ts' -> RL ps ps' -> RL ms ms' ->
  resP RL3 (adx_lines p k ts ps ms) (adx_lines p k' ts' ps' ms').
Proof.
  intros Hnm -> -> Ht Hp Hm. unfold adx_lines.
  do 3 (eapply resP_bind; [apply make_R; [exact Hnm|reflexivity|reflexivity]|intros ? ? ?]).
  eapply resP_for with (R := fun _ => RL3).
  - lia.
  - repeat split; cbn; try apply H; try apply H0; apply H1.
  - intros i [[ua ub] uc] [[va vb] vc] Hi (A1 & A2 & A3). cbn [fst snd] in *. rbody.
    apply resP_ok. repeat split; cbn; try apply H2; try apply H3; apply H4.
  - auto.
  - intros i [[ua ub] uc] [[va vb] vc] [[wa wb] wc] Hl0 Hi (A1 & A2 & A3) E. cbn [fst snd] in *.
    linv. destruct (adx_di x x1 x0) as [[u v] w] eqn:Ed. linv.
    unfold RL3; cbn [fst snd].
    split; [|split]; (eapply Rlist_tail; [| |eassumption]; [eassumption|lia]).
Qed.
Lemma ADX_R p kl kl' : RL kl kl' -> resP RL (adx_calc p kl []) (adx_calc p kl' []).
Proof.
  unfold adx_calc. intros. rohlc.
  eapply resP_bind; [apply adx_dm_R; eassumption|intros [[a b] c] [[a' b'] c'] (A1 & A2 & A3)]. cbn [fst snd] in *.
  rsteps.
  eapply resP_bind; [apply adx_lines_R; [eapply Rlist_le; eassumption|rlen|rlen|eassumption..]
    |intros [[d e] f] [[d' e'] f'] (B1 & B2 & B3)]. cbn [fst snd] in *. rsteps. rrows.
Qed.

(** *** Obv, AccumulationDistribution: the data field grows in the same loop *)
Lemma prefix_app_r A (a b : list A) x : prefix a b -> prefix a (b ++ [x]).
Proof. intros [t ->]. exists (t ++ [x]). now rewrite app_assoc. Qed.
Lemma obv_length kl d : obv_calc tt kl [] = Ok d -> length d = length kl.
Proof.
  unfold obv_calc. intros E. apply bind_ok in E as (o & _ & E).
  apply (@for_inv_ok _ (fun j q => Z.of_nat (length q) = j)) in E; [unfold len in E; lia|apply len_nonneg|reflexivity|].
  intros j q q' Hj Hq Eq. apply bind_ok in Eq as (v & _ & Eq). apply bind_ok in Eq as (t & _ & Eq). injection Eq as <-.
  rewrite app_length. cbn [length]. lia.
Qed.
Lemma Obv_R kl kl' : RL kl kl' -> resP RL (obv_calc tt kl []) (obv_calc tt kl' []).
Proof.
  intros H. pose proof (Rlist_le H). apply resP_Rlist; [assumption| | |].
  - unfold obv_calc. rohlc. rewrite (Rlist_len H), (Rlist_len' H).
    eapply resP_for with (R := fun _ => eq); [lia|reflexivity| | |].
    + intros i d ? Hi <-. eapply resP_bind with (R := eq).
      * rbody.
      * intros v ? <-. rbody.
    + intros i s ? _ <-. exists []. now rewrite app_nil_r.
    + intros i s t t' _ _ Hp E. apply bind_ok in E as (v & _ & E). apply bind_ok in E as (u & _ & E). injection E as <-.
      now apply prefix_app_r.
  - intros d E. apply obv_length in E. rewrite E. eapply Rlist_length; exact H.
  - intros d E. apply obv_length in E. rewrite E. eapply Rlist_length'; exact H.
Qed.
Lemma ad_length kl d : ad_calc tt kl [] = Ok d -> length d = length kl.
Proof.
  unfold ad_calc. rewrite GetOHLC_spec. cbn [bind oClose oHigh oLow oVolume]. intros E.
  rewrite make_len in E. cbn [bind] in E. rewrite map_length in E.
  apply bind_ok in E as ([a d'] & E' & E). injection E as <-.
  apply (@for_inv_ok _ (fun j q => Z.of_nat (length (snd q)) = j)) in E'.
  - cbn [snd] in E'. unfold len in E'. rewrite repeat_length in E'. lia.
  - apply len_nonneg.
  - reflexivity.
  - intros j [a1 q] [a2 q'] Hj Hq Eq. cbn [snd] in *.
    repeat (apply bind_ok in Eq as (? & _ & Eq)). injection Eq; intros; subst.
    rewrite app_length. cbn [length]. lia.
Qed.
Lemma AD_R kl kl' : RL kl kl' -> resP RL (ad_calc tt kl []) (ad_calc tt kl' []).
Proof.
  intros H. pose proof (Rlist_le H). apply resP_Rlist; [assumption| | |].
  - unfold ad_calc. rohlc. rmake.
    apply resP_bind with (R := fun x y => prefix (snd x) (snd y));
      [|intros [? ?] [? ?] HRet; apply resP_ok; exact HRet].
    rewrite (Rlist_len H1), (Rlist_len' H1).
    eapply resP_for with (R := fun _ x y => RL (fst x) (fst y) /\ snd x = snd y); [lia|auto| | |].
    + intros i [qa d] [qa' d'] Hi [Ha Hd]. cbn [fst snd] in *. subst d'.
      eapply resP_bind with (R := RL).
      { destruct (i >? 0); [|now apply resP_ok]. rget. now apply Rlist_set. }
      intros qb qb' Hb. rget. cbn beta zeta.
      eapply resP_bind with (R := RL); [now apply Rlist_set|intros qc qc' Hc2].
      eapply resP_bind; [eapply time_at_R; exact H|intros t ? <-]. rget.
      apply resP_ok. auto.
    + intros i [qa d] [qa' d'] _ [_ Hd]. cbn [snd] in *. subst. exists []. now rewrite app_nil_r.
    + intros i [qa d] [qa' d'] [qa2 d2] _ _ Hp E. cbn [snd] in *.
      repeat (apply bind_ok in E as (? & _ & E)). injection E; intros; subst. now apply prefix_app_r.
  - intros d E. apply ad_length in E. rewrite E. eapply Rlist_length; exact H.
  - intros d E. apply ad_length in E. rewrite E. eapply Rlist_length'; exact H.
Qed.
Lemma Chaikin_R p kl kl' : RL kl kl' -> resP RL (chaikin_calc p kl []) (chaikin_calc p kl' []).
Proof.
  intros H. unfold chaikin_calc. eapply resP_bind; [exact (AD_R H)|intros ? ? ?]. rsteps. rrows.
Qed.
End C.
