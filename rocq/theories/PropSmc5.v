(** * PropSmc5: SmartMoneyConcepts in a market in which nothing happens (C99, continued). *)
From Coq Require Import ZArith List Bool Lia.
From Verif Require Import PropInd1 Base Num B64 XReal Order SpecNum Ta Sides Klines KlineProofs3 IndBase Lits Smc SpecSmc PropSmc PropSmc3 PropSmc4.
Import ListNotations.
Set Implicit Arguments.
Unset Strict Implicit.
Open Scope Z_scope.

Lemma loop_keeps S (P : S -> Prop) (f : Z -> S -> res S) n : (forall i s s', P s -> f i s = Ok s' -> P s') ->
  forall lo s r, P s -> loop n lo f s = Ok r -> P r.
Proof.
  intros Hf. induction n as [|n IH]; intros lo s r Hs E; cbn [loop] in E; [now injection E as <-|].
  apply bind_ok in E as (s' & E1 & E). eapply IH; [|exact E]. eapply Hf; eassumption.
Qed.
Section Flat.
Variable m : Model.
Local Notation N := (num m).
Variables h l c : @F N.
Lemma get_const A (x : A) xs i y : Forall (eq x) xs -> get xs i = Ok y -> y = x.
Proof.
  intros H E. rewrite Forall_forall in H. symmetry. apply H. unfold get in E. destruct (i <? 0); [discriminate|].
  destruct (nth_error xs (Z.to_nat i)) eqn:G; [|discriminate]. injection E as <-. eapply nth_error_In; eassumption.
Qed.
Lemma slice_const A (x : A) xs i j ys : Forall (eq x) xs -> slice xs i j = Ok ys -> Forall (eq x) ys.
Proof.
  intros H E. unfold slice in E. destruct (_ && _) in E; [|discriminate]. injection E as <-. rewrite Forall_forall in *. intros y Hy. apply H.
  rewrite <- (firstn_skipn (Z.to_nat j) xs). apply in_or_app. left. rewrite <- (firstn_skipn (Z.to_nat i) (firstn _ xs)). apply in_or_app. now right.
Qed.
Lemma lt_asym (x y : @F N) : (x <~ y) = true -> (y <~ x) = false.
Proof.
  intros H. destruct (isNaN x) eqn:X; [|destruct (isNaN y) eqn:Y].
  - exact (proj1 (ol_lt_nan (ord_laws m) y x (or_intror X))).
  - exact (proj1 (ol_lt_nan (ord_laws m) y x (or_introl Y))).
  - now apply (ol_asym (ord_laws m)).
Qed.
Lemma lt_irr (x : @F N) : (x <~ x) = false.
Proof. destruct (x <~ x) eqn:E; [|reflexivity]. rewrite <- E. now apply lt_asym. Qed.
Lemma zero_eq : ((fzero : @F N) ==~ fzero) = true.
Proof. rewrite (ol_eq (ord_laws m)) by apply (ol_zero (ord_laws m)). now rewrite lt_irr. Qed.
Lemma highest_const x xs n u : Forall (eq x) xs -> Highest (N := N) xs n = Ok u -> u = x.
Proof.
  intros H E. unfold Highest in E. apply bind_ok in E as (y & E1 & E). apply (get_const H) in E1. subst y. unfold for_ in E.
  refine (@loop_keeps _ (fun u => u = x) _ _ _ _ _ _ eq_refl E). intros i s s' -> E'. apply bind_ok in E' as (w & E1 & E'). apply (get_const H) in E1. subst w.
  injection E' as <-. now destruct (_ <~ _).
Qed.
Lemma lowest_const x xs n u : Forall (eq x) xs -> Lowest (N := N) xs n = Ok u -> u = x.
Proof.
  intros H E. unfold Lowest in E. apply bind_ok in E as (y & E1 & E). apply (get_const H) in E1. subst y. unfold for_ in E.
  refine (@loop_keeps _ (fun u => u = x) _ _ _ _ _ _ eq_refl E). intros i s s' -> E'. apply bind_ok in E' as (w & E1 & E'). apply (get_const H) in E1. subst w.
  injection E' as <-. now destruct (_ <~ _).
Qed.
Lemma swings_const hs ls n r : Forall (eq h) hs -> Forall (eq l) ls -> swings (N := N) hs ls n 0 = Ok r -> r = (fzero, fzero, 0).
Proof.
  intros Hh Hl E. unfold swings in E. apply bind_ok in E as (u & E1 & E). apply (highest_const Hh) in E1. apply bind_ok in E as (w & E2 & E). apply (lowest_const Hl) in E2.
  apply bind_ok in E as (a & E3 & E). apply (get_const Hh) in E3. apply bind_ok in E as (a' & E4 & E). assert (a' = h). { destruct (len hs - n - 1 >=? 0); [now apply (get_const Hh) in E4|]. injection E4 as <-. exact E3. }
  apply bind_ok in E as (b & E5 & E). apply (get_const Hl) in E5. apply bind_ok in E as (b' & E6 & E). assert (b' = l). { destruct (len ls - n - 1 >=? 0); [now apply (get_const Hl) in E6|]. injection E6 as <-. exact E5. }
  subst. rewrite !lt_irr in E. cbn in E. now injection E as <-.
Qed.
Lemma over_const cs s b : Forall (eq c) cs -> CrossOver (N := N) cs s = Ok b -> b = false.
Proof.
  intros H E. unfold CrossOver in E. apply bind_ok in E as (y & E1 & E). apply (get_const H) in E1. subst y. destruct (s <~ c) eqn:L; [|now injection E as <-].
  apply bind_ok in E as (y & E1 & E). apply (get_const H) in E1. subst y. injection E as <-. now apply lt_asym.
Qed.
Lemma under_const cs s b : Forall (eq c) cs -> CrossUnder (N := N) cs s = Ok b -> b = false.
Proof.
  intros H E. unfold CrossUnder in E. apply bind_ok in E as (y & E1 & E). apply (get_const H) in E1. subst y. destruct (c <~ s) eqn:L; [|now injection E as <-].
  apply bind_ok in E as (y & E1 & E). apply (get_const H) in E1. subst y. injection E as <-. now apply lt_asym.
Qed.
(** nothing found so far *)
Definition quiet (v : @Loc N) (e : @Smc N) : Prop :=
  lTop v = pivot0 /\ lBtm v = pivot0 /\ lITop v = pivot0 /\ lIBtm v = pivot0 /\ lTrend v = 0 /\ lITrend v = 0 /\
  sOs1 e = 0 /\ sOs2 e = 0 /\ sBullish e = [] /\ sBearish e = [] /\ Forall (fun r => rVal r = smc_zero) (sData e) /\
  sStrongHigh e = sw_zero /\ sStrongLow e = sw_zero.
Lemma bar_quiet p oh atr i v e v' e' : EqEnable p = false -> Forall (eq h) (oHigh oh) -> Forall (eq l) (oLow oh) -> Forall (eq c) (oClose oh) -> quiet v e ->
  smc_bar p oh atr i v e = Ok (v', e') -> quiet v' e'.
Proof.
  intros Eq Hh Hl Hc (Q1 & Q2 & Q3 & Q4 & Q5 & Q6 & Q7 & Q8 & Q9 & Q10 & Q11 & Q12 & Q13) E. unfold smc_bar in E. rewrite Eq, Q1, Q2, Q3, Q4, Q5, Q6, Q7, Q8, Q9, Q10, Q12, Q13 in E.
  do 4 (apply bind_ok in E as (? & _ & E)). apply bind_ok in E as (hs & E1 & E). apply (slice_const Hh) in E1. apply bind_ok in E as (ls & E2 & E). apply (slice_const Hl) in E2.
  apply bind_ok in E as (sw1 & S1 & E). apply (swings_const E1 E2) in S1. subst sw1. apply bind_ok in E as (sw2 & S2 & E). apply (swings_const E1 E2) in S2. subst sw2.
  unfold arm in E. rewrite !zero_eq in E. cbn [negb] in E. cbv zeta in E. destruct (trail fmax _ _ _ _ _) as [up upX]. destruct (trail fmin _ _ _ _ _) as [dn dnX].
  apply bind_ok in E as (cs & E3 & E). apply (slice_const Hc) in E3. apply bind_ok in E as (at_ & _ & E).
  apply bind_ok in E as (z1 & X1 & E). apply (over_const E3) in X1. subst z1. cbn [andb brk bind] in E.
  apply bind_ok in E as (z2 & X2 & E). apply (over_const E3) in X2. subst z2. cbn [andb brk bind] in E.
  apply bind_ok in E as (z3 & X3 & E). apply (under_const E3) in X3. subst z3. cbn [andb brk bind] in E.
  apply bind_ok in E as (z4 & X4 & E). apply (under_const E3) in X4. subst z4. cbn [andb brk bind] in E.
  cbn [ob_clean ob_removelist range_ bind] in E. unfold ob_clean, ob_removelist in E. cbn in E.
  apply bind_ok in E as (tu & _ & E). apply bind_ok in E as (td & _ & E). apply bind_ok in E as (r & R1 & E). apply bind_ok in E as (d & D1 & E). injection E as <- <-.
  repeat split; cbn [lTop lBtm lITop lIBtm lTrend lITrend sOs1 sOs2 sBullish sBearish sStrongHigh sStrongLow sData].
  clear - R1 D1 Q11. rewrite Forall_forall in Q11 |- *. intros w Hw. unfold set in D1.
  assert (Z : rVal r = smc_zero). { apply Q11. unfold get in R1. destruct (i <? 0); [discriminate|]. destruct (nth_error (sData e) (Z.to_nat i)) eqn:G; [|discriminate]. injection R1 as <-. eapply nth_error_In; eassumption. }
  destruct (_ && _) in D1; [|discriminate]. injection D1 as <-. revert Hw. generalize (Z.to_nat i). revert Q11. clear R1. induction (sData e) as [|y ys IH]; intros Q n Hw; [destruct n; destruct Hw|].
  destruct n; cbn [upd] in Hw; destruct Hw as [<-|Hw]; [exact Z|apply Q; now right|apply Q; now left|]. eapply IH; [|exact Hw]. intros; apply Q; now right.
Qed.
Lemma step_quiet p oh atr i v e s : EqEnable p = false -> Forall (eq h) (oHigh oh) -> Forall (eq l) (oLow oh) -> Forall (eq c) (oClose oh) -> quiet v e ->
  smc_step p oh atr i (v, e) = Ok s -> quiet (fst s) (snd s).
Proof.
  intros Eq Hh Hl Hc Q E. unfold smc_step in E. do 4 (apply bind_ok in E as (? & _ & E)). cbv zeta in E. destruct (i <? SwingLenght p).
  - injection E as <-. exact Q.
  - destruct s as [v' e']. eapply bar_quiet; [..|exact E]; try eassumption.
Qed.
End Flat.

(** On a chart whose highs are all one price, whose lows are all one price and whose closes are all one price, a new object with the
    default setting for equal highs and lows (off) finds nothing: every row is zero, there is no order block and no strong high or low.
    In exact arithmetic and in float64, for any prices, whatever opens and volumes. *)
Theorem C99_SmartMoneyConcepts (m : Model) (p : SmcP) (h l c : @F (num m)) (kl : list (@Candle (num m))) :
  (200 < length kl)%nat -> 0 <= SwingLenght p -> EqEnable p = false ->
  (forall k, In k kl -> cHigh k = h /\ cLow k = l /\ cClose k = c) ->
  exists e, smc_run p kl = Ok e /\ length (sData e) = length kl /\ (forall r, In r (sData e) -> rVal r = smc_zero) /\
    sBullish e = [] /\ sBearish e = [] /\ sStrongHigh e = sw_zero /\ sStrongLow e = sw_zero.
Proof.
  intros Hn Hs Eq Hk. assert (Hb : EqEnable p = true -> 0 <= BarsConfirmation p) by now rewrite Eq.
  destruct (@C66_total m p kl Hn Hs Hb) as (oh & e & E1 & E2). exists e.
  assert (R : smc_run p kl = Ok e) by (unfold smc_run; rewrite E1; exact E2). split; [exact R|].
  split; [exact (proj1 (@C68_rows m p kl oh e Hn Hs Hb E1 E2))|].
  rewrite GetOHLC_spec in E1. injection E1 as <-. unfold smc_Calculation in E2. apply bind_ok in E2 as (atr & _ & E2). apply bind_ok in E2 as (d & D & E2). cbv zeta in E2.
  apply bind_ok in E2 as ([v e'] & L & E2). injection E2 as <-. unfold for_ in L.
  assert (Q : quiet v e').
  { refine (@loop_keeps _ (fun s => quiet (fst s) (snd s)) _ _ _ _ _ _ _ L).
    - intros i [w f] s Hq E. cbn [fst snd] in Hq. eapply (@step_quiet m h l c); [exact Eq|..|exact Hq|exact E]; cbn [oHigh oLow oClose]; rewrite Forall_forall; intros x Hx; apply in_map_iff in Hx as (k & <- & Ik); symmetry; now apply Hk.
    - cbn [fst snd]. repeat split; cbn [sData]. rewrite make_len in D. injection D as <-. rewrite Forall_forall. intros r Hr. apply repeat_spec in Hr. now subst r. }
  destruct Q as (_ & _ & _ & _ & _ & _ & _ & _ & B1 & B2 & B3 & B4 & B5). rewrite Forall_forall in B3. repeat split; auto.
Qed.
Print Assumptions C99_SmartMoneyConcepts.
(** such a chart, and that it is not for want of looking: with a rising last stretch the same chart has a break of structure *)
Example C99_hyp_SmartMoneyConcepts : let kl := repeat (kd 100 105 95 100 1 60) 210 in
  (200 < length kl)%nat /\ (forall k, In k kl -> cHigh k = fz 105 /\ cLow k = fz 95 /\ cClose k = fz 100) /\
  rmap (fun e => existsb (fun r => negb (HighBOSLong (rVal r) ==~ fzero)) (sData e)) (smc_run (smc_params 5 3 1) (ramps 224)) = Ok true.
Proof.
  split; [rewrite repeat_length; lia|]. split; [|vm_compute; reflexivity].
  intros k H. apply repeat_spec in H. subst k. repeat split.
Qed.
