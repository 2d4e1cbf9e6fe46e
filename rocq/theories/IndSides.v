(** * IndSides: the signals, and the catalogue. *)
From Verif Require Import Base Num Containers Ta TaTools TaElem TaStat TaCausal Regression Sides Klines
  KlineProofs3 CountLaw IndBase IndTrend IndChannel IndVolume IndOsc IndAll IndTools IndCausal.
Set Implicit Arguments.

Section S.
Context {N : Num}.
Variables n m : nat.
Local Notation RL := (Rlist n m).
Notation cs := (list Candle).
Implicit Types kl : cs.

(** ** ProjectionOscillator *)
Lemma GenerateNumbers_tab (k : nat) : CountLaw N -> Z.of_nat k <= 2 ^ 53 ->
  GenerateNumbers (ofZ 0) (ofZ (Z.of_nat k)) (ofZ 1) = Ok (tab k (fun i => ofZ 0 +~ ofZ 1 *~ ofZ (Z.of_nat i))).
Proof.
  intros HC Hk. unfold GenerateNumbers. rewrite HC by lia. rewrite make_ok by lia. cbn [bind]. rewrite Nat2Z.id.
  apply (@fill_loop _ fzero (fun i => ofZ 0 +~ ofZ 1 *~ ofZ (Z.of_nat i)) k 0); [lia|lia|].
  intros i Hi. apply partial_set; [lia|reflexivity].
Qed.
Lemma tab_R A (f : nat -> A) : (n <= m)%nat -> RL (tab n f) (tab m f).
Proof.
  intros H. repeat split; rewrite ?tab_length; auto. intros i Hi.
  rewrite !tab_nth_error by lia. reflexivity.
Qed.
Lemma MLS_R p xs xs' ys ys' : RL xs xs' -> RL ys ys' ->
  resP (fun a b => RL (fst a) (fst b)) (MovingLeastSquare p xs ys) (MovingLeastSquare p xs' ys').
Proof.
  intros Hx Hy. unfold MovingLeastSquare. pose proof (Rlist_le Hx). do 2 rmake.
  apply resP_bind with (R := fun x y => RL (snd (fst x)) (snd (fst y)));
    [|intros [[? ?] ?] [[? ?] ?] HRet; apply resP_ok; exact HRet].
  rewrite (Rlist_len Hx), (Rlist_len' Hx).
  eapply resP_for with (R := fun i x y => (i <= Z.of_nat n -> fst (fst x) = fst (fst y)) /\
    RL (snd (fst x)) (snd (fst y)) /\ RL (snd x) (snd y)).
  - lia.
  - repeat split; try apply H0; apply H1.
  - intros i [[s u] v] [[s' u'] v'] Hi (A1 & A2 & A3). cbn [fst snd] in *. rewrite <- A1 by lia.
    eapply resP_bind; [eapply Rlist_getP; eassumption|intros ? ? <-].
    eapply resP_bind; [eapply Rlist_getP; eassumption|intros ? ? <-]. cbn zeta.
    eapply resP_bind with (R := eq); [rbody|intros [s2 k] ? <-].
    destruct (s4_line k s2) as [mi bi].
    eapply resP_bind with (R := RL); [now apply Rlist_set|intros ? ? ?].
    eapply resP_bind with (R := RL); [now apply Rlist_set|intros ? ? ?].
    apply resP_ok. cbn [fst snd]. auto.
  - intros i x y _ (_ & X & _). exact X.
  - intros i [[s u] v] [[s' u'] v'] [[s2 u2] v2] _ Hi X E. cbn [fst snd] in *.
    apply bind_ok in E as (? & _ & E). apply bind_ok in E as (? & _ & E). apply bind_ok in E as ([s3 k] & _ & E).
    destruct (s4_line k s3) as [mi bi]. apply bind_ok in E as (? & Es & E). apply bind_ok in E as (? & _ & E).
    injection E; intros; subst. eapply Rlist_tail; [exact X| |exact Es]. lia.
Qed.
Lemma Proj_R p kl kl' : CountLaw N -> len kl' <= 2 ^ 53 -> RL kl kl' ->
  resP RL (proj_calc p kl []) (proj_calc p kl' []).
Proof.
  intros HCL Hb H. unfold proj_calc. rohlc. pose proof (Rlist_le H) as Hnm.
  rewrite (Rlist_len' H) in Hb. rewrite (Rlist_len HC), (Rlist_len' HC).
  rewrite !GenerateNumbers_tab by (auto; lia). cbn [bind]. pose proof (tab_R (fun i => ofZ 0 +~ ofZ 1 *~ ofZ (Z.of_nat i)) Hnm) as HX.
  eapply resP_bind; [apply MLS_R; eassumption|intros [mh ?] [mh' ?] Hmh]. cbn [fst] in Hmh.
  eapply resP_bind; [apply MLS_R; eassumption|intros [ml ?] [ml' ?] Hml]. cbn [fst] in Hml.
  rsteps. rrows.
Qed.

(** ** Sides *)
Lemma crossing_R A kl kl' (d d' : list (row A)) b s : RL kl kl' -> RL d d' ->
  resP RL (crossing kl d b s) (crossing kl' d' b s).
Proof.
  intros H Hd. unfold crossing. apply analyse_R; [eapply Rlist_le; eassumption|rlen|rlen|exact Hd|].
  intros. apply resP_refl.
Qed.
Lemma price_crossing_R A kl kl' (d d' : list (row A)) b s : RL kl kl' -> RL d d' ->
  resP RL (price_crossing kl d b s) (price_crossing kl' d' b s).
Proof.
  intros H Hd. unfold price_crossing. rohlc.
  apply analyse_R; [eapply Rlist_le; eassumption|rlen|rlen|exact Hd|]. intros. rget.
Qed.
Lemma ichi_sides_R p kl kl' d d' : RL kl kl' -> RL d d' -> resP RL (ichi_sides p kl d) (ichi_sides p kl' d').
Proof.
  intros H Hd. unfold ichi_sides. rohlc.
  apply analyse_R; [eapply Rlist_le; eassumption|rlen|rlen|exact Hd|]. intros. rget.
Qed.
Lemma proj_sides_R kl kl' d d' : RL kl kl' -> RL d d' -> resP RL (proj_sides kl d) (proj_sides kl' d').
Proof.
  intros H Hd. unfold proj_sides.
  apply analyse_R; [eapply Rlist_le; eassumption|rlen|rlen|exact Hd|]. intros. rget.
Qed.
Lemma begin_sides_R d d' : RL d d' -> resP RL (begin_sides d) (begin_sides d').
Proof.
  intros Hd. unfold begin_sides.
  apply analyse_R; [eapply Rlist_le; eassumption|rlen|rlen|exact Hd|]. intros. rget.
Qed.
Lemma utbot_sides_R d d' : RL d d' -> resP RL (utbot_sides d) (utbot_sides d').
Proof.
  intros Hd. unfold utbot_sides.
  apply analyse_R; [eapply Rlist_le; eassumption|rlen|rlen|exact Hd|]. intros. rget.
Qed.
Lemma vegas_cross_R d d' i : RL d d' -> resP eq (vegas_cross d i) (vegas_cross d' i).
Proof. intros Hd. unfold vegas_cross. apply resP_for_eq. intros k [? ?] Hk. rget. Qed.
Lemma vegas_sides_R kl kl' d d' : RL kl kl' -> RL d d' -> resP RL (vegas_sides kl d) (vegas_sides kl' d').
Proof.
  intros H Hd. unfold vegas_sides. rohlc. rmake. apply from1_R; [eassumption|rlen|rlen| |rtail].
  intros i r r' Hi Hr. rbody.
  - apply vegas_cross_R; assumption.
Qed.
Lemma traderxo_sides_R d d' : RL d d' -> resP RL (traderxo_sides d) (traderxo_sides d').
Proof.
  intros Hd. unfold traderxo_sides. pose proof (Rlist_le Hd). do 3 rmake.
  apply resP_bind with (R := fun x y => RL (xsides x) (xsides y)); [|intros x y HRet; apply resP_ok; exact HRet].
  rewrite (Rlist_len Hd), (Rlist_len' Hd).
  eapply resP_for with (R := fun i x y => (i <= Z.of_nat n -> xcb x = xcb y /\ xcs x = xcs y) /\
    RL (xbuys x) (xbuys y) /\ RL (xsells x) (xsells y) /\ RL (xsides x) (xsides y)).
  - lia.
  - cbn. auto.
  - intros i [c1 c2 bu se si] [c1' c2' bu' se' si'] Hi (A1 & A2 & A3 & A4). cbn [xcb xcs xbuys xsells xsides] in *.
    destruct (A1 ltac:(lia)) as [<- <-]. destruct (i <? 1).
    + eapply resP_bind with (R := RL); [now apply Rlist_set|intros ? ? ?]. apply resP_ok. cbn. auto.
    + eapply resP_bind; [eapply Rlist_getP; exact Hd|intros w ? <-]. cbn zeta.
      eapply resP_bind with (R := RL); [now apply Rlist_set|intros ? ? ?].
      eapply resP_bind with (R := RL); [now apply Rlist_set|intros ? ? ?].
      eapply resP_bind; [eapply Rlist_getP; eassumption|intros ? ? <-].
      eapply resP_bind; [eapply Rlist_getP; eassumption|intros ? ? <-].
      eapply resP_bind with (R := RL); [now apply Rlist_set|intros ? ? ?]. apply resP_ok. cbn. auto.
  - intros i x y _ (_ & _ & _ & X). exact X.
  - intros i [c1 c2 bu se si] [c1' c2' bu' se' si'] y _ Hi X E. cbn [xcb xcs xbuys xsells xsides] in *.
    destruct (i <? 1).
    + apply bind_ok in E as (? & Es & E). injection E as <-. cbn. eapply Rlist_tail; [exact X| |exact Es]. lia.
    + apply bind_ok in E as (? & _ & E). cbn zeta in E. do 4 apply bind_ok in E as (? & _ & E).
      apply bind_ok in E as (? & Es & E). injection E as <-. cbn. eapply Rlist_tail; [exact X| |exact Es]. lia.
Qed.
Lemma cam_sides_R p kl kl' d d' : RL kl kl' -> RL d d' -> resP RL (cam_sides p kl d) (cam_sides p kl' d').
Proof.
  intros H Hd. unfold cam_sides, range_. rmake.
  eapply resP_bind; [apply resP_refl|intros days ? <-]. rohlc. rret. rloop.
Qed.
End S.

(** ** The catalogue *)
Section Cat.
Context {N : Num}.
Implicit Types I : Indicator (N := N).

(** the candles an object is modelled on: ProjectionOscillator computes a slice
    length in float64, exact up to 2^53 *)
Definition fits I (k : nat) : Prop := iname I = iname (N := N) I_Projection -> CountLaw N /\ Z.of_nat k <= 2 ^ 53.
Definition rows_R I : Prop := forall n m p kl kl', Rlist n m kl kl' -> fits I m ->
  resP (Rlist n m) (rows_of I p kl) (rows_of I p kl').
Definition sides_R I : Prop := forall f n m p kl kl' d d', Sides I = Some f ->
  Rlist n m kl kl' -> Rlist n m d d' -> resP (Rlist n m) (f p kl d) (f p kl' d').

Ltac oneof H := cbn [In] in H; repeat (destruct H as [<-|H]); try (destruct H).
Lemma append_rows_cat I : In I append_style -> rows_R I.
Proof.
  intros H. unfold append_style in H.
  oneof H; intros n m p kl kl' HR Hf; unfold rows_of, GetData; cbn [Calculation len length Z.of_nat Z.eqb];
    repeat match goal with p : Param _ |- _ => cbn in p end;
    try (eauto using Ma_R, Rsi_R, StochRsi_R, Cci_R, AiCoin_R, Vortex_R, Heat_R, Donchian_R, Keltner_R, Ulcer_R,
    CMF_R, EMV_R, Force_R, MFI_R, NVI_R, VPT_R, Vwma_R, AO_R, Chaikin_R, Ichimoku_R, PPO_R, Stoch_R, Williams_R; fail).
  - destruct p. now apply AD_R.
  - destruct p. now apply Obv_R.
  - destruct (Hf eq_refl) as [HC Hb]. apply Proj_R; auto. now rewrite (Rlist_len' HR).
Qed.
Lemma make_rows_cat I : In I make_style -> rows_R I.
Proof.
  intros H. unfold make_style in H.
  oneof H; intros n m p kl kl' HR Hf; unfold rows_of, GetData; cbn [Calculation len length Z.of_nat Z.eqb];
    repeat match goal with p : Param _ |- _ => cbn in p end;
    eauto using SmaI_R, EmaI_R, DemaI_R, Macd_R, Kdj_R, AtrI_R, LRC_R, Reversal_R, BP_R, SuperTrend_R, PPST_R,
      UTBot_R, TraderXO_R, Vegas_R, ADX_R, Boll_R, APO_R, VOsc_R.
  apply Cam_R. exact HR.
Qed.
Lemma sides_cat I : In I all_indicators -> sides_R I.
Proof.
  intros H. unfold all_indicators, append_style, make_style in H. cbn [app] in H.
  oneof H; intros f n m p kl kl' d d' Hs HR Hd; cbn in Hs; try discriminate Hs; injection Hs as <-;
    eauto using crossing_R, price_crossing_R, ichi_sides_R, proj_sides_R, begin_sides_R, utbot_sides_R,
      vegas_sides_R, traderxo_sides_R, cam_sides_R.
Qed.
End Cat.
