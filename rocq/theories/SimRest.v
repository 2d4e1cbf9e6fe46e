(** * SimRest: the remaining indicators, and the signals of all strategies, under
    the relations of Sim.v. *)
From Verif Require Import Base Num Containers Ta Regression Sides Klines IndBase IndTrend IndChannel IndVolume IndOsc Sim SimTa SimInd SimAll.
Set Implicit Arguments.
Unset Strict Implicit.

Section SimRest.
Context {N1 N2 : Num} {SM : Sim N1 N2}.
Local Notation F1 := (@F N1).
Local Notation F2 := (@F N2).
Variables (kl : list (@Candle N1)) (kl' : list (@Candle N2)).
Hypothesis K : Forall2 CR kl kl'.
Local Notation rows i j := (Forall2 (rowR (fr i j))).
Ltac fields := repeat split; cbn; fs.
Ltac okf := apply rr_ok; fields.

(** ** RSI, stochastic RSI and KDJ compare price differences with constants *)
Lemma rsi_out_s g l g' l' : loose -> fr 1 0 g g' -> fr 1 0 l l' -> fr 0 0 (rsi_out g l) (rsi_out g' l').
Proof.
  intros L Hg Hl. unfold rsi_out. cbv zeta.
  assert (H : fr 1 0 (g +~ l) (g' +~ l')) by fs.
  assert (H0 : fr 0 0 (g +~ l) (g' +~ l')) by (eapply (fr_loose 0 0 L); exact H).
  pose proof (fr_ratio Hg H). fs.
Qed.
Lemma rsi_add_s c g l c' g' l' : fr 1 0 c c' -> fr 1 0 g g' -> fr 1 0 l l' -> PR (fr 1 0) (fr 1 0) (rsi_add c g l) (rsi_add c' g' l').
Proof.
  intros. unfold rsi_add. replace (c' <~ ofZ 0) with (c <~ ofZ 0) by bs. destruct (c <~ ofZ 0); split; cbn; fs.
Qed.
Lemma rsi_s xs ys p : loose -> frs 1 0 xs ys -> RR (frs 0 0) (@rsi N1 xs p) (@rsi N2 ys p).
Proof.
  intros L H. unfold rsi. go.
  bloop (PR (PR (fr 1 0) (fr 1 0)) (fr 1 0)).
  - match goal with |- RR _ (let '(_, _) := ?e in _) (let '(_, _) := ?e' in _) =>
      assert (X : PR (fr 1 0) (fr 1 0) e e') by (apply rsi_add_s; fs); revert X; generalize e, e' end.
    intros; open_pairs. go.
  - eapply rr_bind; [eapply rr_setf; [eassumption|ls|apply rsi_out_s; [exact L|fs|fs]]|intros].
    bloop (PR (PR (PR (fr 1 0) (fr 1 0)) (fr 1 0)) (frs 0 0)).
    match goal with |- RR _ (let '(_, _) := ?e in _) (let '(_, _) := ?e' in _) =>
      assert (X : PR (fr 1 0) (fr 1 0) e e') by (apply rsi_add_s; fs); revert X; generalize e, e' end.
    intros; open_pairs.
    eapply rr_bind; [eapply rr_setf; [eassumption|ls|apply rsi_out_s; [exact L|fs|fs]]|intros]. go.
Qed.
Lemma Rsi_i p : uses [fClose] -> loose -> RR (rows 0 0) (rows_of (@I_Rsi N1) p kl) (rows_of (@I_Rsi N2) p kl').
Proof. intros U. intros L. cbn. unfold rsi_calc. ohlc. eapply rr_bind; [eapply rsi_s; eassumption|intros]. app. Qed.
Lemma StochRsi_i p : uses [fClose] -> loose -> RR (Forall2 (rowR kdR)) (rows_of (@I_StochRsi N1) p kl) (rows_of (@I_StochRsi N2) p kl').
Proof.
  intros U. intros L. change (RR (Forall2 (rowR kdR)) (stochrsi_calc p kl []) (stochrsi_calc p kl' [])). unfold stochrsi_calc.
  eapply rr_bind; [eapply Rsi_i; [us|exact L]|intros].
  eapply rr_bind; [eapply (@values_app_s _ _ _ _ _ (fr 0 0) 0 0); [auto|eassumption]|intros]. go. app. okf.
Qed.
Lemma lowest_s xs ys : frs 1 0 xs ys -> RR (fr 1 0) (@arrayLowest N1 xs) (@arrayLowest N2 ys).
Proof. intros. unfold arrayLowest. go. loop (fr 1 0). Qed.
Lemma highest_s xs ys : frs 1 0 xs ys -> RR (fr 1 0) (@arrayHighest N1 xs) (@arrayHighest N2 ys).
Proof. intros. unfold arrayHighest. go. loop (fr 1 0). Qed.
Hint Resolve lowest_s highest_s : sim.
Lemma kdj_kd_s p l h c l' h' c' : loose -> frs 1 0 h h' -> frs 1 0 l l' -> frs 1 0 c c' ->
  RR (Forall2 (PR (PR (fr 0 0) (fr 0 0)) (fr 0 0))) (@kdj_kd N1 p l h c) (@kdj_kd N2 p l' h' c').
Proof.
  intros L ? ? ?. unfold kdj_kd.
  eapply rr_bind; [eapply (@rr_make _ _ (PR (PR (fr 0 0) (fr 0 0)) (fr 0 0))); [vs|ls]|intros].
  bloop (PR (PR (frs 1 0) (frs 1 0)) (Forall2 (PR (PR (fr 0 0) (fr 0 0)) (fr 0 0)))).
  assert (X : frs 1 0 (l2 ++ [a0]) (l4 ++ [a'0])) by vs.
  assert (Y : frs 1 0 (l3 ++ [a1]) (l5 ++ [a'1])) by vs.
  revert X Y. generalize (l2 ++ [a0]), (l4 ++ [a'0]), (l3 ++ [a1]), (l5 ++ [a'1]). intros. go.
  eapply rr_bind with (P := fr 0 0).
  - match goal with |- RR _ (if ?d -~ ?e <~ _ then _ else _) (if ?d' -~ ?e' <~ _ then _ else _) =>
      assert (Z : fr 1 0 (d -~ e) (d' -~ e')) by fs; assert (Z0 : fr 0 0 (d -~ e) (d' -~ e')) by (eapply (fr_loose 0 0 L); exact Z);
      replace (d' -~ e' <~ lit 1 1000000) with (d -~ e <~ lit 1 1000000) by (eapply fr_lt; [exact Z0|apply fr_lit]);
      destruct (d -~ e <~ lit 1 1000000) end; go.
    apply fr_mulk; [eapply fr_ratio; [|exact Z]|]; fs.
  - intros. go.
Qed.
Lemma Kdj_i p : uses [fHigh; fLow; fClose] -> loose -> RR (Forall2 (rowR kdjR)) (rows_of (@I_Kdj N1) p kl) (rows_of (@I_Kdj N2) p kl').
Proof.
  intros U. intros L. cbn. unfold kdj_calc. ohlc. eapply rr_bind; [eapply kdj_kd_s; eassumption|intros].
  mkr; [fields|]. unfold kdj_j. okf.
Qed.

(** ** SuperTrend: with the percentage ATR (ChangeATR unset) a percentage is added to a price *)
Definition strR (r : @STRow N1) (r' : @STRow N2) : Prop :=
  fr 1 0 (r_up r) (r_up r') /\ fr 1 0 (r_upb r) (r_upb r') /\ fr 1 0 (r_dn r) (r_dn r') /\ fr 1 0 (r_dnb r) (r_dnb r') /\
  fr 0 0 (r_trend r) (r_trend r').
Lemma st_step_s m s a cp c s' a' cp' c' r r' : fr 1 0 s s' -> fr 1 0 a a' -> fr 1 0 cp cp' -> fr 1 0 c c' -> strR r r' ->
  strR (st_step m s a cp c r) (st_step m s' a' cp' c' r').
Proof.
  intros ? ? ? ? (Hu & Hub & Hd & Hdb & Ht).
  assert (U : fr 1 0 (s -~ (ofZ m *~ a)) (s' -~ (ofZ m *~ a'))) by fs.
  assert (D : fr 1 0 (s +~ (ofZ m *~ a)) (s' +~ (ofZ m *~ a'))) by fs.
  unfold st_step. cbv zeta. revert U D. generalize (s -~ (ofZ m *~ a)), (s' -~ (ofZ m *~ a')), (s +~ (ofZ m *~ a)), (s' +~ (ofZ m *~ a')).
  intros up up' dn dn' U D.
  assert (U1 : fr 1 0 (Nz (r_up r) up) (Nz (r_up r') up')) by (unfold Nz; fs).
  assert (D1 : fr 1 0 (Nz (r_dn r) dn) (Nz (r_dn r') dn')) by (unfold Nz; fs).
  revert U1 D1. generalize (Nz (r_up r) up), (Nz (r_up r') up'), (Nz (r_dn r) dn), (Nz (r_dn r') dn'). intros up1 up1' dn1 dn1' U1 D1.
  assert (T1 : fr 0 0 (Nz (r_trend r) (ofZ 1)) (Nz (r_trend r') (ofZ 1))) by (unfold Nz; fs).
  revert T1. generalize (Nz (r_trend r) (ofZ 1)), (Nz (r_trend r') (ofZ 1)). intros t t' T1.
  match goal with |- context[(if ?b then ofZ 1 else if ?d then ofZ (-1) else t')] =>
    assert (T2 : fr 0 0 (if (t ==~ ofZ (-1)) && (dn1 <~ c) then ofZ 1 else if (t ==~ ofZ 1) && (c <~ up1) then ofZ (-1) else t)
      (if b then ofZ 1 else if d then ofZ (-1) else t')) by fs end.
  revert T2. match goal with |- fr 0 0 ?e ?e' -> _ => generalize e, e' end. intros t2 t2' T2.
  match goal with |- strR (mkSTRow ?e _ ?f _ _) (mkSTRow ?e' _ ?f' _ _) =>
    assert (U2 : fr 1 0 e e') by fs; assert (D2 : fr 1 0 f f') by fs; revert U2 D2; generalize e, e', f, f' end.
  intros. repeat split; cbn [r_up r_upb r_dn r_dnb r_trend]; fs.
Qed.
Lemma SuperTrend_i p : uses [fHigh; fLow; fClose] -> stChange p = true \/ loose ->
  RR (Forall2 (rowR stR)) (rows_of (@I_SuperTrend N1) p kl) (rows_of (@I_SuperTrend N2) p kl').
Proof.
  intros U. intros L. cbn. unfold supertrend_calc. ohlc. go.
  eapply rr_bind with (P := Forall2 strR).
  - unfold supertrend. eapply rr_bind; [eapply (@rr_make _ _ strR); [fields|ls]|intros].
    eapply rr_bind with (P := frs 1 0).
    { unfold st_atr. destruct L as [-> | L]; [go|]. go. eapply rr_bind; [eapply Natr_s; eassumption|intros]. go. }
    intros. eapply rr_bind with (P := Forall2 strR).
    { go. eapply rr_set; [eassumption|ls|]. fields. }
    intros. unfold scan_rows. eapply (rr_for (Forall2 strR)); [ls|ls|eassumption|].
    intros. eapply rr_bind; [eapply rr_get; [eassumption|ls]|intros].
    eapply rr_bind with (P := strR); [go; apply st_step_s; assumption|]. intros. eapply rr_set; [eassumption|ls|assumption].
  - intros. mkr; [fields|]. destruct H1 as (? & ? & ? & ? & ?). fields.
Qed.

(** ** Pivot point SuperTrend *)
Definition ppR (r : @PPRow N1) (r' : @PPRow N2) : Prop :=
  fr 1 0 (p_up r) (p_up r') /\ fr 1 0 (p_dn r) (p_dn r') /\ fr 1 0 (p_center r) (p_center r') /\ p_trend r = p_trend r' /\
  stR (p_out r) (p_out r').
Lemma pp_step_s f h l a cp c f' h' l' a' cp' c' r r' : fr 0 0 f f' -> fr 1 0 h h' -> fr 1 0 l l' -> fr 1 0 a a' ->
  fr 1 0 cp cp' -> fr 1 0 c c' -> ppR r r' -> ppR (pp_step f h l a cp c r) (pp_step f' h' l' a' cp' c' r').
Proof.
  intros ? ? ? ? ? ? (Hu & Hd & Hc & Ht & _). unfold pp_step. cbv zeta.
  match goal with |- context[negb (?e ==~ ofZ 0)] => match e with context[l'] => fail 1 | context[l] =>
   match goal with |- context[negb (?e' ==~ ofZ 0)] => match e' with context[l'] =>
    assert (L : fr 1 0 e e') by fs; revert L; generalize e, e' end end end end. intros x x' L.
  match goal with |- ppR (mkPPRow _ _ ?e _ _) (mkPPRow _ _ ?e' _ _) =>
    assert (C : fr 1 0 e e') by fs; revert C; generalize e, e' end. intros y y' C.
  match goal with |- ppR (mkPPRow ?e ?f _ _ _) (mkPPRow ?e' ?f' _ _ _) =>
    assert (U2 : fr 1 0 e e') by fs; assert (D2 : fr 1 0 f f') by fs; revert U2 D2; generalize e, e', f, f' end.
  intros u u' d d' U D.
  match goal with |- ppR (mkPPRow _ _ _ ?e _) (mkPPRow _ _ _ ?e' _) =>
    assert (T : e = e') by (replace (p_dn r' <~ c') with (p_dn r <~ c) by bs; replace (c' <~ p_up r') with (c <~ p_up r) by bs; now rewrite Ht);
    revert T; generalize e, e' end. intros t t' <-.
  rewrite <- Ht. unfold ppR, stR. cbn [p_up p_dn p_center p_trend p_out sUp sUpBegin sDn sDnBegin].
  repeat split; try assumption; repeat (apply fr_if; [reflexivity|..]); try fs.
Qed.
Definition ppPR (p : @PPP N1) (p' : @PPP N2) : Prop :=
  ppPeriod p = ppPeriod p' /\ ppAtr p = ppAtr p' /\ fr 0 0 (ppFactor p) (ppFactor p').
Lemma stR0 : stR (@st_zeroV N1) (@st_zeroV N2).
Proof. repeat split; cbn; fs. Qed.
Lemma PPST_i p p' : uses [fHigh; fLow; fClose] -> ppPR p p' -> RR (Forall2 (rowR stR)) (rows_of (@I_PPST N1) p kl) (rows_of (@I_PPST N2) p' kl').
Proof.
  intros U. intros (E1 & E2 & E3). cbn. unfold ppst_calc. ohlc.
  eapply rr_bind with (P := Forall2 ppR).
  - unfold ppsupertrend. rewrite E1, E2. go.
    eapply rr_bind; [eapply (@rr_make _ _ ppR); [fields|ls]|intros].
    unfold scan_rows. eapply (rr_for (Forall2 ppR)); [ls|ls|eassumption|].
    intros. eapply rr_bind; [eapply rr_get; [eassumption|ls]|intros].
    eapply rr_bind with (P := ppR); [go; apply pp_step_s; assumption|]. intros. eapply rr_set; [eassumption|ls|assumption].
  - intros. eapply make_rows_s; [apply stR0|ls|ls|intros ?; go1|intros ?].
    eapply rr_bind; [eapply rr_get; [eassumption|ls]|]. intros ? ? (? & ? & ? & ? & ?). now apply rr_ok.
Qed.

(** ** Camarilla *)
Lemma getCamarilla_s h l c e p h' l' c' e' p' : fr 1 0 h h' -> fr 1 0 l l' -> fr 1 0 c c' -> fr 1 0 e e' -> fr 1 0 p p' ->
  camR (getCamarilla h l c e p) (getCamarilla h' l' c' e' p').
Proof.
  intros. unfold getCamarilla. cbv zeta.
  assert (X : fr 1 0 ((h /~ l) *~ c) ((h' /~ l') *~ c')) by (apply fr_kmul; [eapply fr_ratio; eassumption|assumption]).
  revert X. generalize ((h /~ l) *~ c), ((h' /~ l') *~ c'). intros.
  unfold camR. cbn [caEMA caPivot caH1 caH2 caH3 caH4 caH5 caH6 caL1 caL2 caL3 caL4 caL5 caL6].
  repeat split; fs.
Qed.
Lemma cam0_s q ks ks' : uses [fHigh; fLow; fClose] -> Forall2 CR ks ks' -> RR (Forall2 (rowR camR)) (@cam_calc0 N1 q ks) (@cam_calc0 N2 q ks').
Proof.
  intros U. intros H. unfold cam_calc0. ohlc. go. mkr; [fields|]. apply rr_ok. now apply getCamarilla_s.
Qed.
Definition camPR (p : @CamP N1) (p' : @CamP N2) : Prop :=
  camEMA p = camEMA p' /\ Forall2 CR (camDaily p) (camDaily p') /\
  (forall s s' t t', trel s s' -> trel t t' -> camSameDay p s t = camSameDay p' s' t').
Lemma Camarilla_i p p' : uses [fHigh; fLow; fClose] -> camEMA p = camEMA p' -> RR (Forall2 (rowR camR)) (rows_of (@I_Camarilla N1) p kl) (rows_of (@I_Camarilla N2) p' kl').
Proof. intros U E. cbn. unfold cam_calc. rewrite E. now apply cam0_s. Qed.

(** ** Reversal signals and breakout probability *)
Lemma Reversal_i p : uses [fHigh; fLow; fClose] -> RR (Forall2 (rowR eq)) (rows_of (@I_Reversal N1) p kl) (rows_of (@I_Reversal N2) p kl').
Proof.
  intros U. cbn. unfold reversal_calc. ohlc.
  eapply rr_bind; [eapply (@rr_make _ _ (rowR eq)); [split; [apply trel_zero|reflexivity]|ls]|intros].
  bloop (PR (PR eq eq) (Forall2 (rowR eq))).
  replace (a'1 <~ a'6) with (a1 <~ a6) by bs. destruct (a1 <~ a6); unfold rev_pbs, rev_pss.
  all: mid (Forall2 (rowR eq)); mid (Forall2 (rowR eq)).
Qed.
Definition bpPR (p : @BPP N1) (p' : @BPP N2) : Prop := fr 0 0 (bpStep p) (bpStep p') /\ bpLines p = bpLines p'.
Definition bpiR (v : @BPItem N1) (v' : @BPItem N2) : Prop :=
  fr 1 0 (biPrice v) (biPrice v') /\ fr 0 0 (biPer v) (biPer v') /\ biUp v = biUp v'.
Definition bpR (v : @BPV N1) (v' : @BPV N2) : Prop :=
  Forall2 bpiR (bvList v) (bvList v') /\ fr 0 0 (bvWin v) (bvWin v') /\ fr 0 0 (bvLoss v) (bvLoss v').
Lemma get2_s A B (P : A -> B -> Prop) m m' i j : Forall2 (Forall2 P) m m' -> RR P (get2 m i j) (get2 m' i j).
Proof. intros H. unfold get2. eapply rr_bind; [eapply rr_get; [eassumption|ls]|intros]. eapply rr_get; [eassumption|ls]. Qed.
Lemma set2_s A B (P : A -> B -> Prop) m m' i j v v' : Forall2 (Forall2 P) m m' -> P v v' ->
  RR (Forall2 (Forall2 P)) (set2 m i j v) (set2 m' i j v').
Proof.
  intros H Hv. unfold set2. eapply rr_bind; [eapply rr_get; [eassumption|ls]|intros].
  eapply rr_bind; [eapply rr_set; [eassumption|ls|eassumption]|intros]. eapply rr_set; [eassumption|ls|eassumption].
Qed.
Local Notation bst := (PR eq (Forall2 (Forall2 (fr 0 0)))).
Lemma hit_s g h r c t (st : matZ * @matF N1) (st' : matZ * @matF N2) : bst st st' -> RR bst (@bp_hit N1 g h r c t st) (@bp_hit N2 g h r c t st').
Proof.
  intros H. unfold bp_hit. open_pairs. subst. eapply rr_bind; [apply rr_refl|intros ? ? <-]. go.
  eapply rr_bind; [apply rr_refl|intros ? ? <-].
  eapply rr_bind; [eapply (@set2_s _ _ (fr 0 0)); [eassumption|fs]|intros]. go.
Qed.
Lemma score_s x r g rd h hp l lp x' h' hp' l' lp' (st : matZ * @matF N1) (st' : matZ * @matF N2) :
  fr 1 0 x x' -> fr 1 0 h h' -> fr 1 0 hp hp' -> fr 1 0 l l' -> fr 1 0 lp lp' -> bst st st' ->
  RR bst (@bp_score N1 x r g rd h hp l lp st) (@bp_score N2 x' r g rd h' hp' l' lp' st').
Proof.
  intros ? ? ? ? ? H. unfold bp_score. assert (E : fst st = fst st') by (destruct H; assumption). rewrite E.
  eapply rr_bind; [apply rr_refl|intros ? ? <-]. eapply rr_bind; [apply rr_refl|intros ? ? <-].
  replace (hp' +~ x' <~ h') with (hp +~ x <~ h) by bs. replace (lp' -~ x' <~ l') with (lp -~ x <~ l) by bs.
  do 3 (eapply rr_bind; [eapply hit_s; eassumption|intros]). now apply hit_s.
Qed.
Lemma backtest_s t h hp l v h' hp' l' v' : fr 1 0 h h' -> fr 1 0 hp hp' -> fr 1 0 l l' -> fr 1 0 v v' ->
  RR eq (@bp_backtest N1 t h hp l v) (@bp_backtest N2 t h' hp' l' v').
Proof.
  intros. unfold bp_backtest. eapply rr_bind; [apply rr_refl|intros ? ? <-]. eapply rr_bind; [apply rr_refl|intros ? ? <-].
  replace (v' ==~ hp') with (v ==~ hp) by bs. replace (v' <=~ h') with (v <=~ h) by bs. replace (l' <=~ v') with (l <=~ v) by bs.
  apply rr_refl.
Qed.
Lemma bp_list_s n g rd h l st h' l' st' (vals : @matF N1) (vals' : @matF N2) : fr 1 0 h h' -> fr 1 0 l l' -> fr 1 0 st st' ->
  Forall2 (Forall2 (fr 0 0)) vals vals' -> RR (Forall2 bpiR) (@bp_list N1 n g rd h l st vals) (@bp_list N2 n g rd h' l' st' vals').
Proof.
  intros. unfold bp_list. eapply rr_bind; [eapply (@rr_make _ _ bpiR); [repeat split; cbn; fs|ls]|intros].
  eapply (rr_for (Forall2 bpiR)); [ls|ls|eassumption|]. intros.
  do 4 (eapply rr_bind; [eapply get2_s; eassumption|intros]).
  match goal with |- RR _ (if ?b then _ else _) (if ?b' then _ else _) => replace b' with b by bs; destruct b end; [|now apply rr_ok].
  eapply rr_bind; [eapply rr_set; [eassumption|ls|split; [|split]; cbn; [fs|destruct g; assumption|reflexivity]]|intros].
  eapply rr_set; [eassumption|ls|split; [|split]; cbn; [fs|destruct g; assumption|reflexivity]].
Qed.
Lemma bp_bar_s p p' o h l c op cp hp lp o' h' l' c' op' cp' hp' lp' (st : matZ * @matF N1) (st' : matZ * @matF N2) : bpPR p p' ->
  fr 1 0 h h' -> fr 1 0 l l' -> fr 1 0 c c' -> fr 1 0 op op' -> fr 1 0 cp cp' -> fr 1 0 hp hp' -> fr 1 0 lp lp' ->
  bst st st' -> RR (PR bst bpR) (@bp_bar N1 p o h l c op cp hp lp st) (@bp_bar N2 p' o' h' l' c' op' cp' hp' lp' st').
Proof.
  intros [Hs Hn] ? ? ? ? ? ? ? H. unfold bp_bar. cbv zeta. rewrite <- Hn.
  assert (S1 : fr 1 0 (c *~ (bpStep p /~ ofZ 100)) (c' *~ (bpStep p' /~ ofZ 100))) by fs.
  revert S1. generalize (c *~ (bpStep p /~ ofZ 100)), (c' *~ (bpStep p' /~ ofZ 100)). intros s s' S1.
  replace (op' <~ cp') with (op <~ cp) by bs. replace (cp' <~ op') with (cp <~ op) by bs.
  generalize (op <~ cp), (cp <~ op). intros g rd. open_pairs. subst.
  do 4 (eapply rr_bind; [apply rr_refl|intros ? ? <-]).
  eapply rr_bind; [eapply score_s; try eassumption; [fs|split; [reflexivity|eassumption]]|intros ? ? ?].
  do 3 (eapply rr_bind; [eapply score_s; try eassumption; fs|intros ? ? ?]).
  eapply rr_bind; [eapply score_s; try eassumption; fs|intros ? ? ?]. open_pairs. subst.
  do 4 (eapply rr_bind; [eapply get2_s; eassumption|intros]).
  eapply rr_bind; [eapply bp_list_s; eassumption|intros].
  eapply rr_bind with (P := eq).
  - destruct g.
    + match goal with |- RR _ (if ?b then _ else _) (if ?b' then _ else _) => replace b' with b by bs; destruct b end; now apply backtest_s.
    + match goal with |- RR _ (if ?b then _ else _) (if ?b' then _ else _) => replace b' with b by bs; destruct b end; now apply backtest_s.
  - intros ? ? <-. do 2 (eapply rr_bind; [apply rr_refl|intros ? ? <-]). apply rr_ok.
    split; [split; [reflexivity|assumption]|]. repeat split; cbn; [assumption|fs|fs].
Qed.
Lemma BP_i p p' : uses [fOpen; fHigh; fLow; fClose] -> bpPR p p' -> RR (Forall2 (rowR bpR)) (rows_of (@I_BreakoutProbability N1) p kl) (rows_of (@I_BreakoutProbability N2) p' kl').
Proof.
  intros U. intros Hp. cbn. unfold bp_calc. ohlc.
  eapply rr_bind; [eapply (@rr_make _ _ (rowR bpR)); [split; [apply trel_zero|split; [constructor|split; cbn; fs]]|ls]|intros].
  eapply rr_bind with (P := PR bst (Forall2 (rowR bpR))); [|intros ? ? ?; open_pairs; go].
  eapply (rr_for (PR bst (Forall2 (rowR bpR)))); [ls|ls|split; [split; [reflexivity|]|eassumption]|].
  - cbn. repeat (constructor; [repeat constructor; apply fr_fzero|]). constructor.
  - intros i [s d] [s' d'] [Hs Hd]. cbn [fst snd] in Hs, Hd. go.
    eapply rr_bind; [eapply bp_bar_s; try eassumption; apply pr_intro; (eassumption || reflexivity)|]. intros [[t v] r] [[t' v'] r'] [Hq Hr]. cbn [fst snd] in Hq, Hr.
    eapply rr_bind; [eapply rr_set; [eassumption|ls|split; eassumption]|intros]. apply rr_ok. now split.
Qed.

(** ** Signals *)
Ltac rule := intros; repeat match goal with H : _ /\ _ |- _ => destruct H | H : kdR _ _ |- _ => destruct H
  | H : macdR _ _ |- _ => destruct H | H : kdjR _ _ |- _ => destruct H | H : heatR _ _ |- _ => destruct H
  | H : stR _ _ |- _ => destruct H | H : utR _ _ |- _ => destruct H | H : xoR _ _ |- _ => destruct H
  | H : vegasR _ _ |- _ => destruct H | H : bandR _ _ |- _ => destruct H | H : bollR _ _ |- _ => destruct H
  | H : camR _ _ |- _ => destruct H | H : chaikinR _ _ |- _ => destruct H | H : ichiR _ _ |- _ => destruct H
  | H : ppoR _ _ |- _ => destruct H | H : projR _ _ |- _ => destruct H end.
Ltac cross := eapply crossing_s; [exact K|eassumption|]; rule; split; bs.
Ltac pcross := eapply price_crossing_s; [match goal with U : uses _ |- _ => apply U; cbn; tauto end|exact K|eassumption|]; rule; split; bs.
Lemma Rsi_sides p : uses [fClose] -> loose -> sides_of (@I_Rsi N1) p kl = sides_of (@I_Rsi N2) p kl'.
Proof.
  intros U. intros L. apply rr_eq. eapply (sides_s (I1 := @I_Rsi N1) (I2 := @I_Rsi N2)); [reflexivity|reflexivity|apply Rsi_i; [us|exact L]|]. intros. cross.
Qed.
Lemma StochRsi_sides p : uses [fClose] -> loose -> sides_of (@I_StochRsi N1) p kl = sides_of (@I_StochRsi N2) p kl'.
Proof.
  intros U. intros L. apply rr_eq. eapply (sides_s (I1 := @I_StochRsi N1) (I2 := @I_StochRsi N2)); [reflexivity|reflexivity|apply StochRsi_i; [us|exact L]|].
  intros. cross.
Qed.
Lemma Kdj_sides p : uses [fHigh; fLow; fClose] -> loose -> sides_of (@I_Kdj N1) p kl = sides_of (@I_Kdj N2) p kl'.
Proof.
  intros U. intros L. apply rr_eq. eapply (sides_s (I1 := @I_Kdj N1) (I2 := @I_Kdj N2)); [reflexivity|reflexivity|apply Kdj_i; [us|exact L]|]. intros. cross.
Qed.
Lemma Macd_sides p : uses [fClose] -> sides_of (@I_Macd N1) p kl = sides_of (@I_Macd N2) p kl'.
Proof.
  intros U. apply rr_eq. eapply (sides_s (I1 := @I_Macd N1) (I2 := @I_Macd N2)); [reflexivity|reflexivity|apply Macd_s; [exact K|us]|]. intros. cross.
Qed.
Lemma Cci_sides p : uses [fHigh; fLow; fClose] -> sides_of (@I_Cci N1) p kl = sides_of (@I_Cci N2) p kl'.
Proof.
  intros U. apply rr_eq. eapply (sides_s (I1 := @I_Cci N1) (I2 := @I_Cci N2)); [reflexivity|reflexivity|apply Cci_s; [exact K|us]|]. intros. cross.
Qed.
Lemma AiCoin_sides p : uses [fClose] -> sides_of (@I_AiCoinCCI N1) p kl = sides_of (@I_AiCoinCCI N2) p kl'.
Proof.
  intros U. apply rr_eq. eapply (sides_s (I1 := @I_AiCoinCCI N1) (I2 := @I_AiCoinCCI N2)); [reflexivity|reflexivity|apply AiCoin_s; [exact K|us]|]. intros. cross.
Qed.
Lemma Heat_sides p : uses [fHigh; fLow; fClose] -> sides_of (@I_StochasticHeat N1) p kl = sides_of (@I_StochasticHeat N2) p kl'.
Proof.
  intros U. apply rr_eq. eapply (sides_s (I1 := @I_StochasticHeat N1) (I2 := @I_StochasticHeat N2)); [reflexivity|reflexivity|apply Heat_i; [exact K|us]|]. intros. cross.
Qed.
Lemma begin_s d d' : Forall2 (rowR stR) d d' -> RR eq (@begin_sides N1 d) (@begin_sides N2 d').
Proof.
  intros H. unfold begin_sides. eapply analyse_s; [ls|exact H|]. rule. cbn. f_equal; bs.
Qed.
Lemma SuperTrend_sides p : uses [fHigh; fLow; fClose] -> stChange p = true \/ loose -> sides_of (@I_SuperTrend N1) p kl = sides_of (@I_SuperTrend N2) p kl'.
Proof.
  intros U. intros L. apply rr_eq. eapply (sides_s (I1 := @I_SuperTrend N1) (I2 := @I_SuperTrend N2)); [reflexivity|reflexivity|apply SuperTrend_i; [us|exact L]|].
  intros. now apply begin_s.
Qed.
Lemma PPST_sides p p' : uses [fHigh; fLow; fClose] -> ppPR p p' -> sides_of (@I_PPST N1) p kl = sides_of (@I_PPST N2) p' kl'.
Proof.
  intros U. intros L. apply rr_eq. eapply (sides_s (I1 := @I_PPST N1) (I2 := @I_PPST N2)); [reflexivity|reflexivity|apply PPST_i; [us|exact L]|].
  intros. now apply begin_s.
Qed.
Lemma UTBot_sides p : uses [fHigh; fLow; fClose] -> sides_of (@I_UTBot N1) p kl = sides_of (@I_UTBot N2) p kl'.
Proof.
  intros U. apply rr_eq. eapply (sides_s (I1 := @I_UTBot N1) (I2 := @I_UTBot N2)); [reflexivity|reflexivity|apply UTBot_i; [exact K|us]|].
  intros. eapply analyse_s; [ls|eassumption|]. rule. cbn. f_equal; bs.
Qed.
Lemma TraderXO_sides p : uses [fClose] -> sides_of (@I_TraderXO N1) p kl = sides_of (@I_TraderXO N2) p kl'.
Proof.
  intros U. apply rr_eq. eapply (sides_s (I1 := @I_TraderXO N1) (I2 := @I_TraderXO N2)); [reflexivity|reflexivity|apply TraderXO_i; [exact K|us]|].
  intros d d' H. unfold traderxo_sides. rewrite <- (f2_len H).
  do 3 (eapply rr_bind; [apply rr_refl|intros ? ? <-]).
  eapply rr_bind with (P := eq); [|intros ? ? <-; apply rr_refl].
  eapply (rr_for eq); [ls|ls|reflexivity|]. intros i s s' <-. destruct (i <? 1); [apply rr_refl|].
  eapply rr_bind; [eapply rr_get; [eassumption|ls]|]. intros r r' [_ [Hf Hs]].
  replace (xSlow (rVal r') <~ xFast (rVal r')) with (xSlow (rVal r) <~ xFast (rVal r)) by bs.
  replace (xFast (rVal r') <~ xSlow (rVal r')) with (xFast (rVal r) <~ xSlow (rVal r)) by bs.
  apply rr_refl.
Qed.
Lemma Vegas_sides p : uses [fClose; fBull] -> sides_of (@I_EMAVegas N1) p kl = sides_of (@I_EMAVegas N2) p kl'.
Proof.
  intros U. apply rr_eq. eapply (sides_s (I1 := @I_EMAVegas N1) (I2 := @I_EMAVegas N2)); [reflexivity|reflexivity|apply Vegas_i; [exact K|us]|].
  intros d d' H. unfold vegas_sides. ohlc. rewrite or_b.
  eapply rr_bind; [apply rr_refl|intros ? ? <-].
  eapply (rr_for eq); [ls|ls|reflexivity|]. intros i s s' <-. destruct (i <? 1); [apply rr_refl|].
  eapply rr_bind; [eapply rr_get; [eassumption|ls]|]. intros r r' [_ Hr]. destruct (_ <? 0); [apply rr_refl|].
  eapply rr_bind with (P := eq).
  - unfold vegas_cross. eapply (rr_for eq); [ls|ls|reflexivity|]. intros k [t1 d1] ? <-.
    eapply rr_bind; [eapply rr_get; [eassumption|ls]|]. intros u u' [_ Hu].
    eapply rr_bind; [eapply rr_get; [eassumption|ls]|]. intros w w' [_ Hw]. rule. apply rr_ok.
    f_equal; match goal with |- (if ?b then _ else _) = (if ?b' then _ else _) => replace b' with b by bs; reflexivity end.
  - intros [t1 d1] ? <-. eapply rr_bind; [apply rr_refl|intros ? ? <-].
    replace (vegas_up (rVal r')) with (vegas_up (rVal r)) by (unfold vegas_up; rule; bs).
    replace (vegas_dn (rVal r')) with (vegas_dn (rVal r)) by (unfold vegas_dn; rule; bs). apply rr_refl.
Qed.
Lemma Boll_sides p : uses [fClose] -> sides_of (@I_Boll N1) p kl = sides_of (@I_Boll N2) p kl'.
Proof.
  intros U. apply rr_eq. eapply (sides_s (I1 := @I_Boll N1) (I2 := @I_Boll N2)); [reflexivity|reflexivity|apply Boll_i; [exact K|us]|]. intros. pcross.
Qed.
Lemma Donchian_sides p : uses [fClose] -> sides_of (@I_Donchian N1) p kl = sides_of (@I_Donchian N2) p kl'.
Proof.
  intros U. apply rr_eq. eapply (sides_s (I1 := @I_Donchian N1) (I2 := @I_Donchian N2)); [reflexivity|reflexivity|apply Donchian_i; [exact K|us]|]. intros. pcross.
Qed.
Lemma Keltner_sides p : uses [fHigh; fLow; fClose] -> sides_of (@I_Keltner N1) p kl = sides_of (@I_Keltner N2) p kl'.
Proof.
  intros U. apply rr_eq. eapply (sides_s (I1 := @I_Keltner N1) (I2 := @I_Keltner N2)); [reflexivity|reflexivity|apply Keltner_i; [exact K|us]|]. intros. pcross.
Qed.
Lemma MFI_sides p : uses [fHigh; fLow; fClose; fVolume] -> sides_of (@I_MFI N1) p kl = sides_of (@I_MFI N2) p kl'.
Proof.
  intros U. apply rr_eq. eapply (sides_s (I1 := @I_MFI N1) (I2 := @I_MFI N2)); [reflexivity|reflexivity|apply MFI_s; [exact K|us]|]. intros. cross.
Qed.
Lemma APO_sides p : uses [fClose] -> sides_of (@I_APO N1) p kl = sides_of (@I_APO N2) p kl'.
Proof.
  intros U. apply rr_eq. eapply (sides_s (I1 := @I_APO N1) (I2 := @I_APO N2)); [reflexivity|reflexivity|apply APO_i; [exact K|us]|]. intros. cross.
Qed.
Lemma AO_sides p : uses [fHigh; fLow] -> sides_of (@I_AO N1) p kl = sides_of (@I_AO N2) p kl'.
Proof.
  intros U. apply rr_eq. eapply (sides_s (I1 := @I_AO N1) (I2 := @I_AO N2)); [reflexivity|reflexivity|apply AO_i; [exact K|us]|]. intros. cross.
Qed.
Lemma Chaikin_sides p : uses [fHigh; fLow; fClose; fVolume] -> sides_of (@I_Chaikin N1) p kl = sides_of (@I_Chaikin N2) p kl'.
Proof.
  intros U. apply rr_eq. eapply (sides_s (I1 := @I_Chaikin N1) (I2 := @I_Chaikin N2)); [reflexivity|reflexivity|apply Chaikin_i; [exact K|us]|]. intros. cross.
Qed.
Lemma PPO_sides p : uses [fClose] -> sides_of (@I_PPO N1) p kl = sides_of (@I_PPO N2) p kl'.
Proof.
  intros U. apply rr_eq. eapply (sides_s (I1 := @I_PPO N1) (I2 := @I_PPO N2)); [reflexivity|reflexivity|apply PPO_i; [exact K|us]|]. intros. cross.
Qed.
Lemma Stoch_sides p : uses [fHigh; fLow; fClose] -> sides_of (@I_Stoch N1) p kl = sides_of (@I_Stoch N2) p kl'.
Proof.
  intros U. apply rr_eq. eapply (sides_s (I1 := @I_Stoch N1) (I2 := @I_Stoch N2)); [reflexivity|reflexivity|apply Stoch_i; [exact K|us]|]. intros. cross.
Qed.
Lemma Williams_sides p : uses [fHigh; fLow; fClose] -> sides_of (@I_Williams N1) p kl = sides_of (@I_Williams N2) p kl'.
Proof.
  intros U. apply rr_eq. eapply (sides_s (I1 := @I_Williams N1) (I2 := @I_Williams N2)); [reflexivity|reflexivity|apply Williams_i; [exact K|us]|]. intros. cross.
Qed.
Lemma Proj_sides p : uses [fHigh; fLow; fClose] -> sides_of (@I_Projection N1) p kl = sides_of (@I_Projection N2) p kl'.
Proof.
  intros U. apply rr_eq. eapply (sides_s (I1 := @I_Projection N1) (I2 := @I_Projection N2)); [reflexivity|reflexivity|apply Proj_i; [exact K|us]|].
  intros. eapply analyse_s; [ls|eassumption|]. rule. cbn. f_equal; bs.
Qed.
Lemma Ichi_sides p : uses [fHigh; fLow; fClose] -> sides_of (@I_Ichimoku N1) p kl = sides_of (@I_Ichimoku N2) p kl'.
Proof.
  intros U. apply rr_eq. eapply (sides_s (I1 := @I_Ichimoku N1) (I2 := @I_Ichimoku N2)); [reflexivity|reflexivity|apply Ichi_i; [exact K|us]|].
  intros. unfold ichi_sides. ohlc. eapply analyse_s; [ls|eassumption|]. rule. go. cbn. f_equal; bs.
Qed.
Lemma cam_find_s (f g : Z -> Z -> bool) t t' ds ds' old old' : (forall s s' t t', trel s s' -> trel t t' -> f s t = g s' t') ->
  trel t t' -> Forall2 (rowR camR) ds ds' -> optR camR old old' -> optR camR (cam_find f t ds old) (cam_find g t' ds' old').
Proof.
  intros Hf Ht Hd Ho. unfold cam_find. induction Hd as [|r r' ds ds' [Hr1 Hr2] Hd IH]; cbn [find]; [exact Ho|].
  rewrite (Hf _ _ _ _ Hr1 Ht). destruct (g _ _); [exact Hr2|exact IH].
Qed.
Lemma Camarilla_sides p p' : uses [fOpen; fHigh; fLow; fClose] -> camPR p p' -> sides_of (@I_Camarilla N1) p kl = sides_of (@I_Camarilla N2) p' kl'.
Proof.
  intros U. intros (E1 & E2 & E3). apply rr_eq.
  eapply (sides_s (I1 := @I_Camarilla N1) (I2 := @I_Camarilla N2)); [reflexivity|reflexivity|apply Camarilla_i; [us|exact E1]|].
  intros d d' Hd. unfold cam_sides. rewrite (f2_len K), E1. eapply rr_bind; [apply rr_refl|intros ? ? <-].
  eapply rr_bind; [apply cam0_s; [us|exact E2]|intros days days' Hdays]. ohlc.
  eapply rr_bind with (P := PR (optR camR) eq); [|intros ? ? ?; open_pairs; subst; apply rr_refl].
  eapply (@rr_range _ _ _ _ (rowR camR) (PR (optR camR) eq)); [exact Hd|split; [exact I|reflexivity]|].
  intros i r r' [o s] [o' s'] [Ht Hr] [Ho Hs]. cbn [fst snd] in Ho, Hs. subst s'.
  pose proof (cam_find_s E3 Ht Hdays Ho) as Hq.
  go. eapply rr_bind with (P := eq); [|intros ? ? <-; apply rr_ok; now split].
  revert Hq. generalize (cam_find (camSameDay p) (rTime r) days o), (cam_find (camSameDay p') (rTime r') days' o').
  intros [q|] [q'|] Hq; cbn in Hq; try easy; [|apply rr_refl]. rule.
  match goal with |- RR _ (set _ _ (decide ?b ?c)) (set _ _ (decide ?b' ?c')) => replace b' with b by bs; replace c' with c by bs end.
  apply rr_refl.
Qed.
End SimRest.
