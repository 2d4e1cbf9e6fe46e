(** * PropSmc7: which settings of SmartMoneyConcepts influence what (C113). *)
From Coq Require Import ZArith List Bool Lia.
From Verif Require Import PropInd1 Base Num B64 XReal Order SpecNum Ta Sides Klines KlineProofs3 IndBase Lits Smc SpecSmc PropSmc PropSmc3 PropSmc4.
Import ListNotations.
Set Implicit Arguments.
Unset Strict Implicit.
Open Scope Z_scope.

Section Two.
Context {N : Num}.
(** what two runs must agree on in a row: everything, or everything but the equal highs and lows *)
Definition key (b : bool) (r : row (@SmcVal N)) : row SmcVal :=
  if b then r else mkRow (rTime r) (put fEQH fzero (put fEQL fzero (rVal r))).
Definition like (b : bool) (d d' : list (row (@SmcVal N))) : Prop := map (key b) d = map (key b) d'.

Lemma key_put b f y r r' : key b r = key b r' -> key b (mkRow (rTime r) (put f y (rVal r))) = key b (mkRow (rTime r') (put f y (rVal r'))).
Proof.
  destruct b; cbn [key]; [now intros ->|]. destruct r as [t v], r' as [t' v']. cbn [rTime rVal]. intros H.
  assert (Ht := f_equal (@rTime _) H). apply (f_equal (@rVal _)) in H. cbn [rTime rVal] in Ht, H. subst t'. f_equal.
  destruct v, v'. cbn [put] in H. injection H as -> -> -> -> -> -> -> ->. now destruct f.
Qed.
Lemma key_time b t r r' : key b r = key b r' -> key b (mkRow t (rVal r)) = key b (mkRow t (rVal r')).
Proof.
  destruct b; cbn [key]; [now intros ->|]. intros H. apply (f_equal (@rVal _)) in H. cbn [rTime rVal] in H |- *. now rewrite H.
Qed.
Lemma key_eq b f y r : b = false -> f = fEQH \/ f = fEQL -> key b (mkRow (rTime r) (put f y (rVal r))) = key b r.
Proof. intros -> Hf. destruct r as [t v], v. destruct Hf as [-> | ->]; reflexivity. Qed.

Lemma get_like b d d' j r r' : like b d d' -> get d j = Ok r -> get d' j = Ok r' -> key b r = key b r'.
Proof.
  unfold like, get. destruct (j <? 0); [discriminate|]. intros H E E'.
  destruct (nth_error d (Z.to_nat j)) eqn:F1; [|discriminate]. destruct (nth_error d' (Z.to_nat j)) eqn:F2; [|discriminate]. injection E as <-. injection E' as <-.
  apply (map_nth_error (key b)) in F1. apply (map_nth_error (key b)) in F2. rewrite H in F1. congruence.
Qed.
Lemma map_upd A B (g : A -> B) l k v : map g (upd l k v) = upd (map g l) k (g v).
Proof. revert k. induction l as [|x l IH]; intros [|k]; cbn; try reflexivity. now rewrite IH. Qed.
Lemma upd_same A (l : list A) k v : nth_error l k = Some v -> upd l k v = l.
Proof. revert k. induction l as [|x l IH]; intros [|k] H; cbn in *; try discriminate; [now injection H as ->|]. now rewrite IH. Qed.
Lemma set_upd A (l : list A) i v r : set l i v = Ok r -> r = upd l (Z.to_nat i) v.
Proof. unfold set. destruct (_ && _); [|discriminate]. now injection 1. Qed.
Lemma set_like b d d' j x x' e e' : like b d d' -> key b x = key b x' -> set d j x = Ok e -> set d' j x' = Ok e' -> like b e e'.
Proof. unfold like. intros H K E E'. apply set_upd in E, E'. subst. rewrite !map_upd. congruence. Qed.

Lemma loop2 S T (R : S -> T -> Prop) (f : Z -> S -> res S) (g : Z -> T -> res T) n : forall lo,
  (forall i s t s' t', R s t -> f i s = Ok s' -> g i t = Ok t' -> R s' t') ->
  forall s t s' t', R s t -> loop n lo f s = Ok s' -> loop n lo g t = Ok t' -> R s' t'.
Proof.
  induction n as [|n IH]; intros lo H s t s' t' HR E E'; cbn [loop] in E, E'; [injection E as <-; now injection E' as <-|].
  apply bind_ok in E as (s1 & E1 & E). apply bind_ok in E' as (t1 & E1' & E'). apply (IH (lo + 1) H s1 t1); auto. now apply (H lo s t).
Qed.
Lemma loop1 S (P : S -> Prop) (f : Z -> S -> res S) n : forall lo, (forall i s s', P s -> f i s = Ok s' -> P s') -> forall s s', P s -> loop n lo f s = Ok s' -> P s'.
Proof.
  induction n as [|n IH]; intros lo H s s' HP E; cbn [loop] in E; [now injection E as <-|]. apply bind_ok in E as (s1 & E1 & E). apply (IH (lo + 1) H s1); auto. now apply (H lo s).
Qed.
Lemma draw_like b f y x i d d' e e' : like b d d' -> draw f y x i d = Ok e -> draw f y x i d' = Ok e' -> like b e e'.
Proof.
  unfold draw, for_. apply loop2. intros j s t s' t' H E E'. apply bind_ok in E as (r & E1 & E). apply bind_ok in E' as (r' & E1' & E').
  eapply set_like; [exact H| |exact E|exact E']. apply key_put. eapply get_like; eassumption.
Qed.
Lemma draw_eq_like b f y x i d e : b = false -> f = fEQH \/ f = fEQL -> draw f y x i d = Ok e -> like b d e.
Proof.
  intros Hb Hf. unfold draw, for_. apply (@loop1 _ (fun e => like b d e)); [|reflexivity]. intros j s s' H E. apply bind_ok in E as (r & E1 & E).
  unfold like in *. rewrite H. apply set_upd in E. subst s'. rewrite map_upd, key_eq by assumption. symmetry. apply upd_same. apply map_nth_error.
  unfold get in E1. destruct (j <? 0); [discriminate|]. destruct (nth_error s _) eqn:F1; [|discriminate]. injection E1 as <-. reflexivity.
Qed.

Lemma obCoord_like oh u i loc hs ls at_ x lst lst' x1 l1 x1' l1' (O : Prop) : (O -> lst = lst') -> obCoord (N := N) oh u i loc hs ls at_ x lst = Ok (x1, l1) ->
  obCoord oh u i loc hs ls at_ x lst' = Ok (x1', l1') -> x1 = x1' /\ (O -> l1 = l1').
Proof.
  intros H E E'. unfold obCoord in *. apply bind_ok in E as ([idx pr] & E1 & E). rewrite E1 in E'. cbn [bind] in E'.
  apply bind_ok in E as (t & E2 & E). rewrite E2 in E'. cbn [bind] in E'. apply bind_ok in E as (o & E3 & E). rewrite E3 in E'. cbn [bind] in E'.
  apply bind_ok in E as (c & E4 & E). rewrite E4 in E'. cbn [bind] in E'. apply bind_ok in E as (h & E5 & E). rewrite E5 in E'. cbn [bind] in E'.
  apply bind_ok in E as (l & E6 & E). rewrite E6 in E'. cbn [bind] in E'. injection E as <- <-. injection E' as <- <-. split; [reflexivity|]. intros o'. now rewrite (H o').
Qed.
Lemma brk_like b (O : Prop) oh fires choch u fb fc i hs ls at_ pv d x lst d' lst' q d1 x1 l1 q' d1' x1' l1' : like b d d' -> (O -> lst = lst') ->
  brk (N := N) oh fires choch u fb fc i hs ls at_ pv (d, x, lst) = Ok (q, (d1, x1, l1)) -> brk oh fires choch u fb fc i hs ls at_ pv (d', x, lst') = Ok (q', (d1', x1', l1')) ->
  q = q' /\ x1 = x1' /\ like b d1 d1' /\ (O -> l1 = l1').
Proof.
  intros Hd Hl E E'. unfold brk in *. destruct fires; [|injection E as <- <- <- <-; injection E' as <- <- <- <-; auto].
  apply bind_ok in E as (e & E1 & E). apply bind_ok in E' as (e' & E1' & E'). apply bind_ok in E as ([x2 l2] & E2 & E). apply bind_ok in E' as ([x2' l2'] & E2' & E').
  injection E as <- <- <- <-. injection E' as <- <- <- <-. destruct (obCoord_like Hl E2 E2') as [<- L]. split; [reflexivity|]. split; [reflexivity|]. split; [eapply draw_like; eassumption|exact L].
Qed.

(** the local variables and the object of two runs *)
Record alike (b : bool) (O : Prop) (s s' : Loc * @Smc N) : Prop := mkAlike {
  al_trend : lTrend (fst s) = lTrend (fst s'); al_itrend : lITrend (fst s) = lITrend (fst s');
  al_top : lTop (fst s) = lTop (fst s'); al_btm : lBtm (fst s) = lBtm (fst s'); al_itop : lITop (fst s) = lITop (fst s'); al_ibtm : lIBtm (fst s) = lIBtm (fst s');
  al_up : lUp (fst s) = lUp (fst s'); al_upx : lUpX (fst s) = lUpX (fst s'); al_dn : lDn (fst s) = lDn (fst s'); al_dnx : lDnX (fst s) = lDnX (fst s');
  al_eq : b = true -> lEqTop (fst s) = lEqTop (fst s') /\ lEqTopX (fst s) = lEqTopX (fst s') /\ lEqBtm (fst s) = lEqBtm (fst s') /\ lEqBtmX (fst s) = lEqBtmX (fst s');
  al_data : like b (sData (snd s)) (sData (snd s'));
  al_bull : O -> sBullish (snd s) = sBullish (snd s'); al_bear : O -> sBearish (snd s) = sBearish (snd s');
  al_os1 : sOs1 (snd s) = sOs1 (snd s'); al_os2 : sOs2 (snd s) = sOs2 (snd s');
  al_idxB : sIdxBullish (snd s) = sIdxBullish (snd s'); al_idxS : sIdxBearish (snd s) = sIdxBearish (snd s');
  al_sH : sStrongHigh (snd s) = sStrongHigh (snd s'); al_wH : sWeakHigh (snd s) = sWeakHigh (snd s');
  al_sL : sStrongLow (snd s) = sStrongLow (snd s'); al_wL : sWeakLow (snd s) = sWeakLow (snd s') }.

Variables (b : bool) (O : Prop) (p p' : SmcP).
Hypothesis Hs : SwingLenght p = SwingLenght p'.
Hypothesis Hb : b = true -> EqEnable p = EqEnable p' /\ BarsConfirmation p = BarsConfirmation p' /\ Threshold p = Threshold p'.
Hypothesis HO : O -> OrderBlockNumber p = OrderBlockNumber p'.

(** the block on equal highs and lows *)
Definition eqs (p : SmcP) (hs ls atr : list F) (i : Z) (v : @Loc N) (d : list (row SmcVal)) :=
  if EqEnable p then
    tops <- PivotHigh hs (BarsConfirmation p) (BarsConfirmation p) ;;
    eq_top <- get tops (len tops - 1) ;;
    btms <- PivotLow ls (BarsConfirmation p) (BarsConfirmation p) ;;
    eq_btm <- get btms (len btms - 1) ;;
    a <- get atr i ;;
    '(eqT, eqTX, data) <- eq_step (fun max min band => max <~ (min +~ band)) fEQH eq_top i a p (lEqTop v, lEqTopX v, d) ;;
    '(eqB, eqBX, data) <- eq_step (fun max min band => (max -~ band) <~ min) fEQL eq_btm i a p (lEqBtm v, lEqBtmX v, data) ;;
    Ok (eqT, eqTX, eqB, eqBX, data)
  else Ok (lEqTop v, lEqTopX v, lEqBtm v, lEqBtmX v, d).
Lemma eq_step_keeps ct f y i a q s r : b = false -> f = fEQH \/ f = fEQL -> eq_step (N := N) ct f y i a q s = Ok r -> like b (snd s) (snd r).
Proof.
  intros B Hf E. unfold eq_step in E. destruct s as [[prev x] d]. destruct (negb _); [|injection E as <-; reflexivity]. cbv zeta in E. apply bind_ok in E as (d1 & E1 & E). injection E as <-.
  cbn [snd]. destruct (ct _ _ _); [|injection E1 as <-; reflexivity]. eapply draw_eq_like; eassumption.
Qed.
Lemma eqs_keeps q hs ls atr i v d a1 a2 a3 a4 d1 : b = false -> eqs q hs ls atr i v d = Ok (a1, a2, a3, a4, d1) -> like b d d1.
Proof.
  intros B E. unfold eqs in E. destruct (EqEnable q); [|injection E as _ _ _ _ <-; reflexivity]. do 5 (apply bind_ok in E as (? & _ & E)).
  apply bind_ok in E as ([[g1 g2] g3] & F6 & E). apply bind_ok in E as ([[k1 k2] k3] & F7 & E). injection E as _ _ _ _ <-.
  apply (eq_step_keeps B (or_introl eq_refl)) in F6. apply (eq_step_keeps B (or_intror eq_refl)) in F7. cbn [snd] in F6, F7. unfold like in *. congruence.
Qed.
Lemma eqs_like hs ls atr i v v' d d' a1 a2 a3 a4 d1 a1' a2' a3' a4' d1' : like b d d' ->
  (b = true -> lEqTop v = lEqTop v' /\ lEqTopX v = lEqTopX v' /\ lEqBtm v = lEqBtm v' /\ lEqBtmX v = lEqBtmX v') ->
  eqs p hs ls atr i v d = Ok (a1, a2, a3, a4, d1) -> eqs p' hs ls atr i v' d' = Ok (a1', a2', a3', a4', d1') ->
  like b d1 d1' /\ (b = true -> a1 = a1' /\ a2 = a2' /\ a3 = a3' /\ a4 = a4').
Proof.
  intros L H E E'. destruct b eqn:B.
  - destruct (Hb eq_refl) as (H1 & H2 & H3), (H eq_refl) as (G1 & G2 & G3 & G4). unfold like in L. cbn [key] in L. rewrite !map_id in L. subst d'.
    unfold eqs, eq_step in E, E'. rewrite <- H1, <- H2, <- H3, <- G1, <- G2, <- G3, <- G4 in E'. rewrite E in E'. injection E' as <- <- <- <- <-. repeat split; reflexivity.
  - split; [|discriminate]. rewrite <- B in L |- *. apply (eqs_keeps B) in E. apply (eqs_keeps B) in E'. unfold like in *. congruence.
Qed.
Lemma bar_like oh atr i v e v' e' r r' : alike b O (v, e) (v', e') -> smc_bar p oh atr i v e = Ok r -> smc_bar p' oh atr i v' e' = Ok r' -> alike b O r r'.
Proof.
  intros [] E E'. cbn [fst snd] in *. unfold smc_bar in E, E'. rewrite <- Hs in E'.
  rewrite <- ?al_trend0, <- ?al_itrend0, <- ?al_top0, <- ?al_btm0, <- ?al_itop0, <- ?al_ibtm0, <- ?al_up0, <- ?al_upx0, <- ?al_dn0, <- ?al_dnx0,
    <- ?al_os3, <- ?al_os4, <- ?al_idxB0, <- ?al_idxS0, <- ?al_sH0, <- ?al_wH0, <- ?al_sL0, <- ?al_wL0 in E'.
  apply bind_ok in E as (cl & E1 & E). rewrite E1 in E'. cbn [bind] in E'. clear E1. apply bind_ok in E as (hi & E1 & E). rewrite E1 in E'. cbn [bind] in E'. clear E1.
  apply bind_ok in E as (lo & E1 & E). rewrite E1 in E'. cbn [bind] in E'. clear E1. apply bind_ok in E as (tm & E1 & E). rewrite E1 in E'. cbn [bind] in E'. clear E1.
  apply bind_ok in E as (hs & E1 & E). rewrite E1 in E'. cbn [bind] in E'. clear E1. apply bind_ok in E as (ls & E1 & E). rewrite E1 in E'. cbn [bind] in E'. clear E1.
  apply bind_ok in E as ([[tp bt] os1] & E1 & E). rewrite <- al_os5, E1 in E' || rewrite E1 in E'. cbn [bind] in E'. clear E1.
  apply bind_ok in E as ([[it ib] os2] & E1 & E). rewrite E1 in E'. cbn [bind] in E'. clear E1.
  cbv zeta in E, E'. destruct (trail fmax _ _ _ _ _) as [up upX]. destruct (trail fmin _ _ _ _ _) as [dn dnX].
  apply bind_ok in E as (cs & E1 & E). rewrite E1 in E'. cbn [bind] in E'. clear E1. apply bind_ok in E as (at_ & E1 & E). rewrite E1 in E'. cbn [bind] in E'. clear E1.
  apply bind_ok in E as (x1 & E1 & E). rewrite E1 in E'. cbn [bind] in E'. clear E1.
  apply bind_ok in E as ([q1 [[d1 j1] m1]] & E1 & E). apply bind_ok in E' as ([q1' [[d1' j1'] m1']] & E1' & E'). destruct (brk_like al_data0 al_bull0 E1 E1') as (<- & <- & L1 & B1). clear E1 E1'.
  apply bind_ok in E as (x2 & E1 & E). rewrite E1 in E'. cbn [bind] in E'. clear E1.
  apply bind_ok in E as ([q2 [[d2 j2] m2]] & E1 & E). apply bind_ok in E' as ([q2' [[d2' j2'] m2']] & E1' & E'). destruct (brk_like L1 al_bear0 E1 E1') as (<- & <- & L2 & B2). clear E1 E1'.
  apply bind_ok in E as (x3 & E1 & E). rewrite E1 in E'. cbn [bind] in E'. clear E1.
  apply bind_ok in E as ([q3 [[d3 j3] m3]] & E1 & E). apply bind_ok in E' as ([q3' [[d3' j3'] m3']] & E1' & E'). destruct (brk_like L2 B1 E1 E1') as (<- & <- & L3 & B3). clear E1 E1'.
  apply bind_ok in E as (x4 & E1 & E). rewrite E1 in E'. cbn [bind] in E'. clear E1.
  apply bind_ok in E as ([q4 [[d4 j4] m4]] & E1 & E). apply bind_ok in E' as ([q4' [[d4' j4'] m4']] & E1' & E'). destruct (brk_like L3 B2 E1 E1') as (<- & <- & L4 & B4). clear E1 E1'.
  apply bind_ok in E as (bu & C1 & E). apply bind_ok in E' as (bu' & C1' & E'). apply bind_ok in E as (be & C2 & E). apply bind_ok in E' as (be' & C2' & E').
  apply bind_ok in E as ([[[[a1 a2] a3] a4] d5] & E1 & E). apply bind_ok in E' as ([[[[a1' a2'] a3'] a4'] d5'] & E1' & E').
  destruct (@eqs_like hs ls atr i v v' d4 d4' _ _ _ _ _ _ _ _ _ _ L4 al_eq0 E1 E1') as [L5 Q]. clear E1 E1'.
  apply bind_ok in E as (tu & E1 & E). rewrite E1 in E'. cbn [bind] in E'. clear E1. apply bind_ok in E as (td & E1 & E). rewrite E1 in E'. cbn [bind] in E'. clear E1.
  apply bind_ok in E as (w & W & E). apply bind_ok in E' as (w' & W' & E'). apply bind_ok in E as (d6 & D & E). apply bind_ok in E' as (d6' & D' & E').
  injection E as <-. injection E' as <-.
  assert (L6 : like b d6 d6') by (eapply set_like; [exact L5|apply key_time; eapply get_like; eassumption|exact D|exact D']).
  constructor; cbn; auto.
  - intros o. rewrite <- (HO o), <- (B3 o) in C1'. congruence.
  - intros o. rewrite <- (HO o), <- (B4 o) in C2'. congruence.
Qed.
Lemma step_like oh atr i s s' r r' : alike b O s s' -> smc_step p oh atr i s = Ok r -> smc_step p' oh atr i s' = Ok r' -> alike b O r r'.
Proof.
  destruct s as [v e], s' as [v' e']. intros A E E'. unfold smc_step in E, E'.
  apply bind_ok in E as (cl & E1 & E). rewrite E1 in E'. cbn [bind] in E'. clear E1. apply bind_ok in E as (hi & E1 & E). rewrite E1 in E'. cbn [bind] in E'. clear E1.
  apply bind_ok in E as (lo & E1 & E). rewrite E1 in E'. cbn [bind] in E'. clear E1. apply bind_ok in E as (tm & E1 & E). rewrite E1 in E'. cbn [bind] in E'. clear E1.
  cbv zeta in E, E'. rewrite <- Hs in E'.
  match type of E with context [mkLoc ?a1 ?a2 ?a3 ?a4 ?a5 ?a6 ?a7 ?a8 ?a9 ?b1 ?b2 ?b3 ?b4 ?b5] => set (w := mkLoc a1 a2 a3 a4 a5 a6 a7 a8 a9 b1 b2 b3 b4 b5) in E end.
  match type of E' with context [mkLoc ?a1 ?a2 ?a3 ?a4 ?a5 ?a6 ?a7 ?a8 ?a9 ?b1 ?b2 ?b3 ?b4 ?b5] => set (w' := mkLoc a1 a2 a3 a4 a5 a6 a7 a8 a9 b1 b2 b3 b4 b5) in E' end.
  assert (A1 : alike b O (w, e) (w', e')).
  { destruct A. cbn [fst snd] in *. constructor; cbn [fst snd w w' lTrend lITrend lTop lBtm lITop lIBtm lUp lUpX lDn lDnX lEqTop lEqTopX lEqBtm lEqBtmX]; auto; now rewrite ?al_up0, ?al_dn0. }
  destruct (i <? SwingLenght p); [injection E as <-; injection E' as <-; exact A1|]. clearbody w w'. exact (@bar_like oh atr i w e w' e' r r' A1 E E').
Qed.
Lemma run_like kl e e' : smc_run p kl = Ok e -> smc_run p' kl = Ok e' -> exists v v', alike b O (v, e) (v', e').
Proof.
  intros E E'. unfold smc_run in E, E'. apply bind_ok in E as (oh & E1 & E). rewrite E1 in E'. cbn [bind] in E'. unfold smc_Calculation in E, E'.
  apply bind_ok in E as (atr & E2 & E). rewrite E2 in E'. cbn [bind] in E'. apply bind_ok in E as (d & E3 & E). rewrite E3 in E'. cbn [bind] in E'. cbv zeta in E, E'.
  apply bind_ok in E as ([v1 e1] & E4 & E). apply bind_ok in E' as ([v2 e2] & E4' & E'). injection E as ->. injection E' as ->. exists v1, v2.
  unfold for_ in E4, E4'. refine (@loop2 _ _ (alike b O) _ _ _ _ _ _ _ _ _ _ E4 E4'); [intros i s t s' t'; apply step_like|]. constructor; auto. reflexivity.
Qed.
End Two.

(** ** C113 *)
(** The BOS and CHoCH levels, the times of the rows and the strong and weak highs and lows depend on the swing length alone: the settings
    for equal highs and lows (on or off, confirmation, threshold) and the number of order blocks do not enter.
    The order blocks depend on the swing length and on the number of order blocks alone. *)
Theorem C113_levels (N : Num) (p p' : SmcP) (kl : list (@Candle N)) (e e' : Smc) :
  SwingLenght p = SwingLenght p' -> smc_run p kl = Ok e -> smc_run p' kl = Ok e' ->
  length (sData e) = length (sData e') /\
  (forall j r r', nth_error (sData e) j = Some r -> nth_error (sData e') j = Some r' ->
     rTime r = rTime r' /\ forall f, f <> fEQH -> f <> fEQL -> field_of f (rVal r) = field_of f (rVal r')) /\
  sStrongHigh e = sStrongHigh e' /\ sWeakHigh e = sWeakHigh e' /\ sStrongLow e = sStrongLow e' /\ sWeakLow e = sWeakLow e' /\
  (OrderBlockNumber p = OrderBlockNumber p' -> sBullish e = sBullish e' /\ sBearish e = sBearish e').
Proof.
  intros Hs E E'. destruct (@run_like N false (OrderBlockNumber p = OrderBlockNumber p') p p' Hs ltac:(discriminate) (fun o => o) kl e e' E E') as (v & v' & A).
  destruct A. cbn [fst snd] in *. unfold like in al_data0. split; [|split; [|repeat split; auto]].
  - apply (f_equal (@length _)) in al_data0. now rewrite !map_length in al_data0.
  - intros j r r' R R'. apply (map_nth_error (key false)) in R, R'. rewrite al_data0, R' in R. apply (f_equal (fun o => match o with Some x => x | None => key false (mkRow 0 (rVal r)) end)) in R. destruct r as [t w], r' as [t' w']. cbn [key rTime rVal] in R.
    assert (Rt := f_equal (@rTime _) R). apply (f_equal (@rVal _)) in R. cbn [rTime rVal] in Rt, R. cbn [rTime rVal]; split; [now symmetry|]. intros f F1 F2.
    destruct w, w'. cbn [put] in R. injection R as -> -> -> -> -> -> -> ->. destruct f; try reflexivity; [now destruct F1|now destruct F2].
Qed.
Print Assumptions C113_levels.

(** no level of any kind depends on the number of order blocks *)
Theorem C113_block_number (N : Num) (p p' : SmcP) (kl : list (@Candle N)) (e e' : Smc) :
  SwingLenght p = SwingLenght p' -> EqEnable p = EqEnable p' -> BarsConfirmation p = BarsConfirmation p' -> Threshold p = Threshold p' ->
  smc_run p kl = Ok e -> smc_run p' kl = Ok e' -> sData e = sData e'.
Proof.
  intros Hs H1 H2 H3 E E'. destruct (@run_like N true False p p' Hs (fun _ => conj H1 (conj H2 H3)) (fun o => match o with end) kl e e' E E') as (v & v' & A).
  apply al_data in A. unfold like in A. cbn [snd] in A. change (key true) with (fun r : row (@SmcVal N) => r) in A. now rewrite !map_id in A.
Qed.
Print Assumptions C113_block_number.

(** while equal highs and lows are switched off, their confirmation and threshold have no effect at all, not even on whether the run panics *)
Theorem C113_switched_off (N : Num) (p p' : SmcP) (kl : list (@Candle N)) :
  SwingLenght p = SwingLenght p' -> OrderBlockNumber p = OrderBlockNumber p' -> EqEnable p = false -> EqEnable p' = false -> smc_run p kl = smc_run p' kl.
Proof. destruct p, p'. cbn. intros <- <- -> ->. reflexivity. Qed.
Print Assumptions C113_switched_off.
(** the hypotheses, on the chart of PropSmc4.v: with equal lows on and two blocks, and with equal lows off and five, the long BOS level is the
    same on rows 199 to 201; the equal low of 99 is shown by the first only *)
Example C113_hyp : let see := rmap (fun e => map (fun r => (ftrunc (HighBOSLong (rVal r)), ftrunc (EQL (rVal r)))) (firstn 3 (skipn 199 (sData e)))) in
  see (smc_run (mkSmcP 5 3 1 true 2) (ramps 224)) = Ok [(0, 99); (143, 99); (143, 99)] /\
  see (smc_run (mkSmcP 5 4 7 false 5) (ramps 224)) = Ok [(0, 0); (143, 0); (143, 0)].
Proof. vm_compute. split; reflexivity. Qed.
