(** * SimSmc: SmartMoneyConcepts under the relations of Sim.v. *)
From Verif Require Import Base Num Containers Ta Klines IndBase Sim SimTa SimInd Smc.
Set Implicit Arguments.
Unset Strict Implicit.

Section SimSmc.
Context {N1 N2 : Num} {SM : Sim N1 N2}.
Local Notation F1 := (@F N1).
Local Notation F2 := (@F N2).
Hypothesis Te : forall s t, trel s t -> s = t.

(** ** Relations *)
Record bkR (k : @Block N1) (k' : @Block N2) : Prop := mkBkR {
  bk_top : bkTop k = bkTop k'; bk_time : bkTime k = bkTime k'; bk_c : fr 1 0 (bkClose k) (bkClose k');
  bk_h : fr 1 0 (bkHigh k) (bkHigh k'); bk_l : fr 1 0 (bkLow k) (bkLow k'); bk_o : fr 1 0 (bkOpen k) (bkOpen k') }.
Definition bksR := Forall2 bkR.
Record svR (v : @SmcVal N1) (v' : @SmcVal N2) : Prop := mkSvR {
  sv1 : fr 1 0 (HighBOSShort v) (HighBOSShort v'); sv2 : fr 1 0 (HighCHoCHShort v) (HighCHoCHShort v');
  sv3 : fr 1 0 (HighBOSLong v) (HighBOSLong v'); sv4 : fr 1 0 (HighCHoCHLong v) (HighCHoCHLong v');
  sv5 : fr 1 0 (LowBOSShort v) (LowBOSShort v'); sv6 : fr 1 0 (LowChoCHShort v) (LowChoCHShort v');
  sv7 : fr 1 0 (LowBOSLong v) (LowBOSLong v'); sv8 : fr 1 0 (LowChoCHLong v) (LowChoCHLong v');
  sv9 : fr 1 0 (EQH v) (EQH v'); sv10 : fr 1 0 (EQL v) (EQL v') }.
Definition dataR := Forall2 (rowR svR).
Record pvR (p : @Pivot N1) (p' : @Pivot N2) : Prop := mkPvR {
  pv_y : fr 1 0 (pvY p) (pvY p'); pv_x : pvX p = pvX p'; pv_c : pvCross p = pvCross p' }.
Record locR (v : @Loc N1) (v' : @Loc N2) : Prop := mkLocR {
  lo_t : lTrend v = lTrend v'; lo_it : lITrend v = lITrend v';
  lo_top : pvR (lTop v) (lTop v'); lo_btm : pvR (lBtm v) (lBtm v'); lo_itop : pvR (lITop v) (lITop v'); lo_ibtm : pvR (lIBtm v) (lIBtm v');
  lo_up : fr 1 0 (lUp v) (lUp v'); lo_upx : lUpX v = lUpX v'; lo_dn : fr 1 0 (lDn v) (lDn v'); lo_dnx : lDnX v = lDnX v';
  lo_et : fr 1 0 (lEqTop v) (lEqTop v'); lo_etx : lEqTopX v = lEqTopX v'; lo_eb : fr 1 0 (lEqBtm v) (lEqBtm v'); lo_ebx : lEqBtmX v = lEqBtmX v' }.
Record smcR (e : @Smc N1) (e' : @Smc N2) : Prop := mkSmcR {
  sm_d : dataR (sData e) (sData e'); sm_bu : bksR (sBullish e) (sBullish e'); sm_be : bksR (sBearish e) (sBearish e');
  sm_o1 : sOs1 e = sOs1 e'; sm_o2 : sOs2 e = sOs2 e'; sm_ib : sIdxBullish e = sIdxBullish e'; sm_is : sIdxBearish e = sIdxBearish e';
  sm_sh : rowR (fr 1 0) (sStrongHigh e) (sStrongHigh e'); sm_wh : rowR (fr 1 0) (sWeakHigh e) (sWeakHigh e');
  sm_sl : rowR (fr 1 0) (sStrongLow e) (sStrongLow e'); sm_wl : rowR (fr 1 0) (sWeakLow e) (sWeakLow e') }.
(** the lows, which obCoord also compares with 99999999 *)
Definition capR (x : F1) (y : F2) : Prop := fr 1 0 x y /\ fr 1 0 (fmin x (ofZ 99999999)) (fmin y (ofZ 99999999)).
Lemma cap_frs xs ys : Forall2 capR xs ys -> frs 1 0 xs ys.
Proof. intros H. induction H as [|x y l l' [Hx _] _ IH]; constructor; assumption. Qed.

(** ** Blocks *)
Lemma bkEqual_s k k' m m' : bkR k k' -> bkR m m' -> bkEqual k m = bkEqual k' m'.
Proof. intros [A B _ _ _ _] [C D _ _ _ _]. unfold bkEqual. now rewrite A, B, C, D. Qed.
Lemma bkContains_s e e' k k' : bksR e e' -> bkR k k' -> bkContains e k = bkContains e' k'.
Proof. intros H Hk. induction H as [|x y l l' Hx _ IH]; cbn; [reflexivity|]. rewrite <- (bkEqual_s Hx Hk), IH. reflexivity. Qed.
Lemma bkFind_s e e' k k' : bksR e e' -> bkR k k' -> bkFind e k = bkFind e' k'.
Proof. intros H Hk. induction H as [|x y l l' Hx _ IH]; cbn; [reflexivity|]. rewrite <- (bkEqual_s Hx Hk), IH. reflexivity. Qed.
Lemma bkAdd_s e e' k k' : bksR e e' -> bkR k k' -> bksR (bkAdd e k) (bkAdd e' k').
Proof. intros H Hk. unfold bkAdd. rewrite <- (bkContains_s H Hk). destruct (bkContains e k); cbn; [exact H|now constructor]. Qed.
Lemma bkRemove_s e e' k k' : bksR e e' -> bkR k k' -> bksR (bkRemove e k) (bkRemove e' k').
Proof.
  intros H Hk. unfold bkRemove. rewrite <- (bkFind_s H Hk). destruct (bkFind e k) as [x|]; [|constructor].
  apply f2_app; [now apply f2_firstn|now apply f2_skipn].
Qed.
Lemma put_s f y y' v v' : fr 1 0 y y' -> svR v v' -> svR (put f y v) (put f y' v').
Proof. intros Hy []. destruct v, v', f; cbn in *; constructor; cbn; assumption. Qed.
Lemma draw_s f y y' a b d d' : fr 1 0 y y' -> dataR d d' -> RR dataR (draw f y a b d) (draw f y' a b d').
Proof.
  intros Hy Hd. unfold draw. eapply (rr_for dataR); [ls|ls|exact Hd|]. intros i s s' Hs.
  eapply rr_bind; [eapply rr_get; [exact Hs|ls]|]. intros r r' [Ht Hr]. eapply rr_set; [exact Hs|ls|]. split; [exact Ht|]. now apply put_s.
Qed.
Lemma Highest_s xs ys n : frs 1 0 xs ys -> RR (fr 1 0) (Highest xs n) (Highest ys n).
Proof. intros. unfold Highest. go. loop (fr 1 0). Qed.
Lemma Lowest_s xs ys n : frs 1 0 xs ys -> RR (fr 1 0) (Lowest xs n) (Lowest ys n).
Proof. intros. unfold Lowest. go. loop (fr 1 0). Qed.
Lemma CrossOver_s xs ys s s' : frs 1 0 xs ys -> fr 1 0 s s' -> RR eq (CrossOver xs s) (CrossOver ys s').
Proof. intros. unfold CrossOver. go. Qed.
Lemma CrossUnder_s xs ys s s' : frs 1 0 xs ys -> fr 1 0 s s' -> RR eq (CrossUnder xs s) (CrossUnder ys s').
Proof. intros. unfold CrossUnder. go. Qed.
Hint Resolve Highest_s Lowest_s CrossOver_s CrossUnder_s : sim.
Lemma swings_s hs ls hs' ls' n o : frs 1 0 hs hs' -> frs 1 0 ls ls' -> RR (PR (PR (fr 1 0) (fr 1 0)) eq) (swings hs ls n o) (swings hs' ls' n o).
Proof.
  intros Hh Hl. unfold swings. go.
  mid (fr 1 0). mid (fr 1 0).
  match goal with |- context[if ?x <~ ?y then 0 else if ?z <~ ?w then 1 else o] => replace (a' <~ a'2) with (a <~ a2) by bs; replace (a'4 <~ a'0) with (a4 <~ a0) by bs end.
  repeat apply pr_intro; [fs|fs|reflexivity].
Qed.
(** ** Order blocks *)
Definition obR (b : bool) (s : F1 * F1 * Z * Z) (s' : F2 * F2 * Z * Z) : Prop :=
  let '(mn, mx, idx, prev) := s in let '(mn', mx', idx', prev') := s' in
  (if b then fr 1 0 mx mx' else fr 1 0 mn mn' \/ (mn = ofZ 99999999 /\ mn' = ofZ 99999999)) /\ idx = idx' /\ prev = prev'.
Lemma ob_step_s b i hs ls atr hs' ls' atr' k s s' : frs 1 0 hs hs' -> Forall2 capR ls ls' -> frs 1 0 atr atr' -> obR b s s' ->
  RR (obR b) (ob_step b i hs ls atr k s) (ob_step b i hs' ls' atr' k s').
Proof.
  intros Hh Hl Ha. destruct s as [[[mn mx] idx] prev], s' as [[[mn' mx'] idx'] prev']. intros (Hm & <- & <-). unfold ob_step.
  eapply rr_bind; [eapply rr_get; [exact Hh|ls]|]. intros h h' H1. eapply rr_bind; [eapply rr_get; [exact Hl|ls]|]. intros l l' [H2 H2']. eapply rr_bind; [eapply rr_get; [exact Ha|ls]|]. intros a a' H3.
  replace (h' -~ l' <~ a' *~ ofZ 2) with (h -~ l <~ a *~ ofZ 2) by bs. destruct (h -~ l <~ a *~ ofZ 2); [|now apply rr_ok].
  destruct b; apply rr_ok; cbn in Hm |- *.
  - replace (fmax h' mx' ==~ h') with (fmax h mx ==~ h) by bs. split; [fs|]. now split.
  - assert (E : fr 1 0 (fmin l mn) (fmin l' mn')) by (destruct Hm as [Hm|[-> ->]]; [fs|exact H2']).
    replace (fmin l' mn' ==~ l') with (fmin l mn ==~ l) by bs. split; [now left|]. now split.
Qed.
Record ohR (o : @OHLC N1) (o' : @OHLC N2) : Prop := mkOhR {
  oh_o : frs 1 0 (oOpen o) (oOpen o'); oh_h : frs 1 0 (oHigh o) (oHigh o'); oh_l : Forall2 capR (oLow o) (oLow o'); oh_c : frs 1 0 (oClose o) (oClose o');
  oh_t : Forall2 trel (oTime o) (oTime o') }.
Lemma obCoord_s oh oh' b i loc hs ls atr hs' ls' atr' prev lst lst' : ohR oh oh' -> frs 1 0 hs hs' -> Forall2 capR ls ls' -> frs 1 0 atr atr' -> bksR lst lst' ->
  RR (PR eq bksR) (obCoord oh b i loc hs ls atr prev lst) (obCoord oh' b i loc hs' ls' atr' prev lst').
Proof.
  intros O Hh Hl Ha Hb. unfold obCoord. eapply rr_bind with (P := eq).
  - unfold ob_scan. eapply rr_bind.
    + eapply (rr_for (obR b)); [ls|ls| |intros; now apply ob_step_s]. cbn. split; [|now split]. destruct b; [apply fr_zero|now right].
    + intros [[[? ?] ?] ?] [[[? ?] ?] ?] (_ & <- & <-). now apply rr_ok.
  - intros [idx pr] ? <-. eapply rr_bind; [apply time_in_s; apply O|]. intros t t' Ht. apply Te in Ht as <-.
    eapply rr_bind; [eapply rr_get; [apply (oh_o O)|ls]|]. intros. eapply rr_bind; [eapply rr_get; [apply (oh_c O)|ls]|]. intros.
    eapply rr_bind; [eapply rr_get; [exact Hh|ls]|]. intros. eapply rr_bind; [eapply rr_get; [exact Hl|ls]|]. intros ? ? [? _].
    apply rr_ok. apply pr_intro; [reflexivity|]. apply bkAdd_s; [exact Hb|]. now constructor.
Qed.
Lemma brk_s oh oh' fires choch useMax fb fc i hs ls atr hs' ls' atr' p p' d d' x lst lst' : ohR oh oh' -> frs 1 0 hs hs' -> Forall2 capR ls ls' -> frs 1 0 atr atr' -> pvR p p' -> dataR d d' -> bksR lst lst' ->
  RR (PR pvR (PR (PR dataR eq) bksR)) (brk oh fires choch useMax fb fc i hs ls atr p (d, x, lst)) (brk oh' fires choch useMax fb fc i hs' ls' atr' p' (d', x, lst')).
Proof.
  intros O Hh Hl Ha Hp Hd Hb. unfold brk. destruct fires; [|apply rr_ok; repeat apply pr_intro; auto]. destruct Hp as [Py Px Pc]. rewrite <- Px.
  eapply rr_bind; [apply draw_s; eassumption|]. intros d1 d1' Hd1. eapply rr_bind; [apply (obCoord_s useMax i (pvX p) x O Hh Hl Ha Hb)|]. intros [ix l1] [ix' l1'] [E Hl1]. cbn in E, Hl1. subst ix'.
  apply rr_ok. repeat apply pr_intro; auto. now constructor.
Qed.
Lemma doomed_s c c' v v' : fr 1 0 c c' -> bkR v v' -> ob_doomed c v = ob_doomed c' v'.
Proof. intros Hc []. unfold ob_doomed. bs. Qed.
Lemma ob_clean_s c c' n l l' : fr 1 0 c c' -> bksR l l' -> RR bksR (ob_clean c n l) (ob_clean c' n l').
Proof.
  intros Hc Hl. unfold ob_clean, ob_removelist. eapply rr_bind with (P := bksR).
  - eapply (@rr_range _ _ _ _ _ bksR); [exact Hl|constructor|]. intros j v v' s s' Hv Hs. apply rr_ok. rewrite <- (doomed_s Hc Hv).
    assert (A : bksR (if ob_doomed c v then s ++ [v] else s) (if ob_doomed c v then s' ++ [v'] else s')) by (destruct (ob_doomed c v); [now apply f2_snoc|assumption]).
    cbv zeta. rewrite <- (bkContains_s A Hv). destruct (_ && _); [now apply f2_snoc|exact A].
  - intros rm rm' Hr. eapply (@rr_range _ _ _ _ _ bksR); [exact Hr|exact Hl|]. intros. apply rr_ok. now apply bkRemove_s.
Qed.
Lemma arm_s y y' x p p' : fr 1 0 y y' -> pvR p p' -> pvR (arm y x p) (arm y' x p').
Proof. intros Hy Hp. unfold arm. replace (y' ==~ fzero) with (y ==~ fzero) by bs. destruct (y ==~ fzero); cbn; [exact Hp|now constructor]. Qed.
Lemma trail_s pick pick' y y' x v v' i t t' : (forall a a' b b', fr 1 0 a a' -> fr 1 0 b b' -> fr 1 0 (pick a b) (pick' a' b')) -> fr 1 0 y y' -> fr 1 0 v v' -> PR (fr 1 0) eq t t' ->
  PR (fr 1 0) eq (trail pick y x v i t) (trail pick' y' x v' i t').
Proof.
  intros Hp Hy Hv [T1 T2]. unfold trail. cbv zeta. replace (y' ==~ fzero) with (y ==~ fzero) by bs. destruct (y ==~ fzero); cbn [negb fst snd].
  - assert (E : fr 1 0 (pick v (fst t)) (pick' v' (fst t'))) by auto. replace (pick' v' (fst t') ==~ v') with (pick v (fst t) ==~ v) by bs. apply pr_intro; [exact E|now rewrite T2].
  - assert (E : fr 1 0 (pick v y) (pick' v' y')) by auto. replace (pick' v' y' ==~ v') with (pick v y ==~ v) by bs. now apply pr_intro.
Qed.
Lemma eq_step_s ct ct' f y y' i a a' p x prev prev' d d' : (forall a b c a' b' c', fr 1 0 a a' -> fr 1 0 b b' -> fr 1 0 c c' -> ct a b c = ct' a' b' c') ->
  fr 1 0 y y' -> fr 1 0 a a' -> fr 1 0 prev prev' -> dataR d d' ->
  RR (PR (PR (fr 1 0) eq) dataR) (eq_step ct f y i a p (prev, x, d)) (eq_step ct' f y' i a' p (prev', x, d')).
Proof.
  intros Hc Hy Ha Hp Hd. unfold eq_step. replace (y' ==~ fzero) with (y ==~ fzero) by bs. destruct (y ==~ fzero); cbn [negb]; [apply rr_ok; repeat apply pr_intro; auto|]. cbv zeta.
  rewrite <- (Hc (fmax y prev) (fmin y prev) (a *~ ofZ (Threshold p) /~ ofZ 10)) by fs.
  eapply rr_bind with (P := dataR); [destruct (ct _ _ _); [now apply draw_s|now apply rr_ok]|]. intros. apply rr_ok. repeat apply pr_intro; auto.
Qed.
Lemma slice_cap ls ls' a b : Forall2 capR ls ls' -> RR (Forall2 capR) (slice ls a b) (slice ls' a b).
Proof. intros H. eapply rr_slice; [exact H|reflexivity|reflexivity]. Qed.
Lemma smc_bar_s p oh oh' atr atr' i v v' e e' : ohR oh oh' -> frs 1 0 atr atr' -> locR v v' -> smcR e e' -> RR (PR locR smcR) (smc_bar p oh atr i v e) (smc_bar p oh' atr' i v' e').
Proof.
  intros O Ha V E. unfold smc_bar. pose proof O as [Oo Oh Ol Oc Ot]. pose proof (cap_frs Ol) as Ol'. destruct E as [Ed Ebu Ebe <- <- <- <- Esh Ewh Esl Ewl]. destruct V as [<- <- Vt Vb Vit Vib Vu <- Vd <- Vet <- Veb <-].
  eapply rr_bind; [eapply rr_get; [exact Oc|ls]|]. intros c c' Hc. eapply rr_bind; [eapply rr_get; [exact Oh|ls]|]. intros h h' Hh. eapply rr_bind; [eapply rr_get; [exact Ol'|ls]|]. intros l l' Hl.
  eapply rr_bind; [eapply rr_get; [exact Ot|ls]|]. intros t t' Ht.
  eapply rr_bind; [eapply rr_slice; [exact Oh|ls|ls]|]. intros hs hs' Hs. eapply rr_bind; [apply slice_cap; exact Ol|]. intros ls ls' Ls. pose proof (cap_frs Ls) as Ls'.
  eapply rr_bind; [apply swings_s; [exact Hs|exact Ls']|]. intros [[tp bt] os1] [[tp' bt'] os1'] [[Q1 Q2] Q3]. cbn in Q1, Q2, Q3. subst os1'.
  eapply rr_bind; [apply swings_s; [exact Hs|exact Ls']|]. intros [[it ib] os2] [[it' ib'] os2'] [[Q3 Q4] Q5]. cbn in Q3, Q4, Q5. subst os2'.
  cbv zeta. assert (PT := arm_s (i - SwingLenght p) Q1 Vt). assert (PI := arm_s (i - 5) Q3 Vit). assert (PB := arm_s (i - SwingLenght p) Q2 Vb). assert (PJ := arm_s (i - 5) Q4 Vib).
  assert (TU : PR (fr 1 0) eq (trail fmax tp (i - SwingLenght p) h i (lUp v, lUpX v)) (trail fmax tp' (i - SwingLenght p) h' i (lUp v', lUpX v))) by (apply trail_s; [intros; fs|exact Q1|exact Hh|now apply pr_intro]).
  assert (TD : PR (fr 1 0) eq (trail fmin bt (i - SwingLenght p) l i (lDn v, lDnX v)) (trail fmin bt' (i - SwingLenght p) l' i (lDn v', lDnX v))) by (apply trail_s; [intros; fs|exact Q2|exact Hl|now apply pr_intro]).
  revert PT PI PB PJ TU TD. generalize (arm tp (i - SwingLenght p) (lTop v)), (arm tp' (i - SwingLenght p) (lTop v')), (arm it (i - 5) (lITop v)), (arm it' (i - 5) (lITop v')), (arm bt (i - SwingLenght p) (lBtm v)), (arm bt' (i - SwingLenght p) (lBtm v')), (arm ib (i - 5) (lIBtm v)), (arm ib' (i - 5) (lIBtm v')).
  intros pT pT' pI pI' pB pB' pJ pJ' PT PI PB PJ. destruct (trail fmax _ _ _ _ _) as [up upX], (trail fmax _ _ _ _ _) as [up' upX']. intros [U1 U2]. destruct (trail fmin _ _ _ _ _) as [dn dnX], (trail fmin _ _ _ _ _) as [dn' dnX']. intros [D1 D2]. cbn in U1, U2, D1, D2. subst upX' dnX'.
  eapply rr_bind; [eapply rr_slice; [exact Oc|reflexivity|reflexivity]|]. intros cs cs' Cs. eapply rr_bind; [eapply rr_slice; [exact Ha|reflexivity|reflexivity]|]. intros at_ at_' At.
  (* short high *)
  eapply rr_bind; [apply CrossOver_s; [exact Cs|apply PI]|]. intros x1 ? <-.
  replace (x1 && pvCross pI' && negb (pvY pT' ==~ pvY pI')) with (x1 && pvCross pI && negb (pvY pT ==~ pvY pI)) by (rewrite (pv_c PI); f_equal; f_equal; eapply fr_eq; [apply PT|apply PI]).
  eapply rr_bind; [apply brk_s; [exact O|exact Hs|exact Ls|exact At|exact PI|exact Ed|exact Ebu]|]. intros [q1 [[d1 j1] m1]] [q1' [[d1' j1'] m1']] [Z1 [[Z2 Z3] Z4]]. cbn in Z1, Z2, Z3, Z4. subst j1'.
  (* long high *)
  eapply rr_bind; [apply CrossOver_s; [exact Cs|apply PT]|]. intros x2 ? <-. rewrite <- (pv_c PT).
  eapply rr_bind; [apply brk_s; [exact O|exact Hs|exact Ls|exact At|exact PT|exact Z2|exact Ebe]|]. intros [q2 [[d2 j2] m2]] [q2' [[d2' j2'] m2']] [Y1 [[Y2 Y3] Y4]]. cbn in Y1, Y2, Y3, Y4. subst j2'.
  (* short low *)
  eapply rr_bind; [apply CrossUnder_s; [exact Cs|apply PJ]|]. intros x3 ? <-.
  replace (x3 && pvCross pJ' && negb (pvY pB' ==~ pvY pJ')) with (x3 && pvCross pJ && negb (pvY pB ==~ pvY pJ)) by (rewrite (pv_c PJ); f_equal; f_equal; eapply fr_eq; [apply PB|apply PJ]).
  eapply rr_bind; [apply brk_s; [exact O|exact Hs|exact Ls|exact At|exact PJ|exact Y2|exact Z4]|]. intros [q3 [[d3 j3] m3]] [q3' [[d3' j3'] m3']] [X1 [[X2 X3] X4]]. cbn in X1, X2, X3, X4. subst j3'.
  (* long low *)
  eapply rr_bind; [apply CrossUnder_s; [exact Cs|apply PB]|]. intros x4 ? <-. rewrite <- (pv_c PB).
  eapply rr_bind; [apply brk_s; [exact O|exact Hs|exact Ls|exact At|exact PB|exact X2|exact Y4]|]. intros [q4 [[d4 j4] m4]] [q4' [[d4' j4'] m4']] [W1 [[W2 W3] W4]]. cbn in W1, W2, W3, W4. subst j4'.
  eapply rr_bind; [apply ob_clean_s; [exact Hc|exact X4]|]. intros bu bu' Bu. eapply rr_bind; [apply ob_clean_s; [exact Hc|exact W4]|]. intros be be' Be.
  eapply rr_bind with (P := PR (PR (PR (PR (fr 1 0) eq) (fr 1 0)) eq) dataR).
  - destruct (EqEnable p); [|apply rr_ok; repeat apply pr_intro; auto].
    eapply rr_bind; [eapply PivotHigh_s; exact Hs|]. intros ts ts' Ts. eapply rr_bind; [eapply rr_get; [exact Ts|ls]|]. intros et et' Et.
    eapply rr_bind; [eapply PivotLow_s; exact Ls'|]. intros bs0 bs0' Bs. eapply rr_bind; [eapply rr_get; [exact Bs|now rewrite (frs_len Bs)]|]. intros eb eb' Eb.
    eapply rr_bind; [eapply rr_get; [exact Ha|reflexivity]|]. intros a a' HA.
    eapply rr_bind; [apply eq_step_s; [intros; bs|exact Et|exact HA|exact Vet|exact W2]|]. intros [[g1 g2] g3] [[g1' g2'] g3'] [[G1 G2] G3]. cbn in G1, G2, G3. subst g2'.
    eapply rr_bind; [apply eq_step_s; [intros; bs|exact Eb|exact HA|exact Veb|exact G3]|]. intros [[k1 k2] k3] [[k1' k2'] k3'] [[K1 K2] K3]. cbn in K1, K2, K3. subst k2'.
    apply rr_ok. repeat apply pr_intro; auto.
  - intros [[[[g1 g2] g3] g4] g5] [[[[g1' g2'] g3'] g4'] g5'] [[[[G1 G2] G3] G4] G5]. cbn in G1, G2, G3, G4, G5. subst g2' g4'.
    eapply rr_bind; [apply time_in_s; exact Ot|]. intros u u' Hu. eapply rr_bind; [apply time_in_s; exact Ot|]. intros w w' Hw.
    eapply rr_bind; [eapply rr_get; [exact G5|reflexivity]|]. intros r r' [_ Hr]. eapply rr_bind; [eapply rr_set; [exact G5|reflexivity|]|].
    { split; [cbn; apply trel_unix; exact Ht|exact Hr]. }
    intros d5 d5' D5. apply rr_ok. apply pr_intro; constructor; cbn; auto.
    all: match goal with |- rowR _ (if ?b then _ else _) _ => destruct b end; auto; split; assumption.
Qed.
Lemma smc_step_s p oh oh' atr atr' i s s' : ohR oh oh' -> frs 1 0 atr atr' -> PR locR smcR s s' -> RR (PR locR smcR) (smc_step p oh atr i s) (smc_step p oh' atr' i s').
Proof.
  intros O Ha. destruct s as [v e], s' as [v' e']. intros [V E]. cbn in V, E. unfold smc_step. pose proof O as [Oo Oh Ol Oc Ot]. pose proof (cap_frs Ol) as Ol'. 
  eapply rr_bind; [eapply rr_get; [exact Oc|ls]|]. intros c c' Hc. eapply rr_bind; [eapply rr_get; [exact Oh|ls]|]. intros h h' Hh. eapply rr_bind; [eapply rr_get; [exact Ol'|ls]|]. intros l l' Hl.
  eapply rr_bind; [eapply rr_get; [exact Ot|ls]|]. intros t t' Ht. cbv zeta. destruct V.
  match goal with |- RR _ (if _ then Ok (?a, _) else _) (if _ then Ok (?b, _) else _) => assert (Q : locR a b) by (constructor; cbn; auto; fs) end.
  destruct (i <? SwingLenght p); [apply rr_ok; now apply pr_intro|]. now apply smc_bar_s.
Qed.
Theorem smc_Calculation_s p oh oh' e e' : ohR oh oh' -> smcR e e' -> RR smcR (smc_Calculation p oh e) (smc_Calculation p oh' e').
Proof.
  intros O E. pose proof O as [Oo Oh Ol Oc Ot]. pose proof (cap_frs Ol) as Ol'. unfold smc_Calculation. eapply rr_bind; [eapply Atr_s; eassumption|]. intros a a' Ha.
  eapply rr_bind; [eapply (@rr_make _ _ (rowR svR)); [|exact (frs_len Oc)]|]. { split; [apply trel_zero|]. constructor; cbn; fs. }
  intros d d' Hd. cbv zeta. eapply rr_bind.
  - eapply (rr_for (PR locR smcR)); [reflexivity|exact (frs_len Oc)| |intros; now apply smc_step_s]. apply pr_intro.
    + constructor; cbn; auto; try fs; constructor; cbn; auto; fs.
    + destruct E. constructor; cbn; auto.
  - intros [? ?] [? ?] [_ Q]. now apply rr_ok.
Qed.
Lemma smc_new_s : smcR smc_new smc_new.
Proof. constructor; cbn; try constructor; cbn; try apply trel_zero; auto; fs. Qed.
End SimSmc.
