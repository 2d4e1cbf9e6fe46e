(** * PropSmc2: SmartMoneyConcepts, properties C67 (which candle becomes an order block), C70 (which breaks are
    drawn, and as what) and C83 (strong and weak highs and lows).  The vocabulary is in SpecSmc2.v. *)
From Coq Require Import ZArith Lia Bool List Reals Lra.
From Verif Require Import Base Num B64 XReal Lits Order OrderMore FloatOrder FloatLaws SpecNum Ta Sides Klines IndBase TaTools TaElem TaRange SpecTa KlineProofs3
  PropInd1 Smc SpecSmc SmcProofs SmcBar PropSmc SpecSmc2 SmcTrace.
Import ListNotations.
Set Implicit Arguments.
Open Scope Z_scope.

(** highs and lows are positive, closes not negative *)
Definition positive_prices (m : Model) (kl : list (Candle (N := num m))) : Prop :=
  forall c, In c kl -> (fzero <~ cHigh c) = true /\ (fzero <~ cLow c) = true /\ (cClose c <~ fzero) = false.
(** the code starts its search for a lowest low at 99999999 *)
Definition below_limit (m : Model) (kl : list (Candle (N := num m))) : Prop := forall c, In c kl -> (cLow c <=~ ofZ 99999999) = true.

Lemma inf_laws (m : Model) : InfLaws (num m).
Proof. destruct m; [apply XR_inf|apply B64_inf]. Qed.

Lemma calc_trace (m : Model) (p : SmcP) kl oh e : (200 < length kl)%nat -> 1 <= SwingLenght p ->
  positive_prices m kl -> below_limit m kl -> GetOHLC kl = Ok oh -> smc_Calculation p oh smc_new = Ok e ->
  exists v, AINV p oh (atr200 m kl) (length kl) (Z.to_nat (SwingLenght p)) (length kl) v e.
Proof.
  intros Hn Hs Hp Hb Eo Ec. rewrite ohlc_is in Eo. injection Eo as <-. unfold smc_Calculation in Ec. cbn [oHigh oLow oClose ohlc] in Ec.
  rewrite atr200_is in Ec by exact Hn. cbn [bind] in Ec. rewrite make_len in Ec.
  cbn [bind smc_new sBullish sBearish sOs1 sOs2 sIdxBullish sIdxBearish sStrongHigh sWeakHigh sStrongLow sWeakLow] in Ec. rewrite map_length in Ec.
  destruct (for_ _ _ _ _) as [[v e']|] eqn:E; [|discriminate]. cbn [bind] in Ec. injection Ec as ->. exists v.
  assert (A : forall (P : @F (num m) -> Prop) (f : Candle -> @F (num m)), (forall c, In c kl -> P (f c)) -> Forall P (map f kl)).
  { intros P f H. apply Forall_forall. intros x Hx. apply in_map_iff in Hx as (c & <- & Hx). now apply H. }
  apply (@loop_all (num m) (ord_laws m) p (ohlc m kl) (atr200 m kl) (length kl) (Z.to_nat (SwingLenght p)) (ohlc_shaped m kl) (tab_length _ _)); try lia.
  - cbn [oHigh ohlc]. apply A. intros c Hc. now apply Hp.
  - cbn [oLow ohlc]. apply A. intros c Hc. now apply Hp.
  - cbn [oClose ohlc]. apply A. intros c Hc. now apply Hp.
  - apply inf_laws.
  - cbn [oLow ohlc]. apply A. exact Hb.
  - exact E.
Qed.

Section Hyps.
Variables (m : Model) (p : SmcP) (kl : list (Candle (N := num m))) (oh : OHLC (N := num m)) (e : Smc (N := num m)).
Hypothesis Hlen : (200 < length kl)%nat.
Hypothesis Hswing : 1 <= SwingLenght p.
Hypothesis Hpos : positive_prices m kl.
Hypothesis Hlim : below_limit m kl.
Hypothesis Hoh : GetOHLC kl = Ok oh.
Hypothesis Hcalc : smc_Calculation p oh smc_new = Ok e.
Let long := Z.to_nat (SwingLenght p).
Local Notation breaks := (breaks (oHigh oh) (oLow oh) (oClose oh) long).
Local Notation against := (against (oHigh oh) (oLow oh) (oClose oh) long).
Local Notation short_rising := (short_rising (oHigh oh) (oLow oh) (oClose oh) long).
Local Notation shown := (shown (oHigh oh) (oLow oh)).

Lemma shown_final v : AINV p oh (atr200 m kl) (length kl) long (length kl) v e ->
  forall j r, nth_error (sData e) j = Some r -> forall hi sc ch, shown hi (labelled oh long hi sc ch) j (field_of (field_for hi sc ch) (rVal r)).
Proof.
  intros [G _] j r Hj hi sc ch. destruct (g_rows G) as [_ R]. eapply shown_ext; [|exact (R j r Hj hi sc ch)].
  intros k i. unfold upto. split; [tauto|]. intros H. split; [exact H|]. destruct H as [[(_ & [C _] & _) _] _].
  rewrite ohlc_is in Hoh. injection Hoh as <-. cbn [oClose ohlc] in C. rewrite map_length in C. lia.
Qed.

(** ** C70: every break is drawn, as a CHoCH when it goes against the last break of its scale and as a BOS otherwise - for
    highs on both scales and lows on the short one.  What a row shows is determined completely. *)
Theorem C70_kinds_partial : forall j r, nth_error (sData e) j = Some r -> let v := rVal r in
  shown true (fun k i => breaks true Short k i /\ ~ against true Short i) j (HighBOSShort v) /\
  shown true (fun k i => breaks true Short k i /\ against true Short i) j (HighCHoCHShort v) /\
  shown true (fun k i => breaks true Long k i /\ ~ against true Long i) j (HighBOSLong v) /\
  shown true (fun k i => breaks true Long k i /\ against true Long i) j (HighCHoCHLong v) /\
  shown false (fun k i => breaks false Short k i /\ ~ against false Short i) j (LowBOSShort v) /\
  shown false (fun k i => breaks false Short k i /\ against false Short i) j (LowChoCHShort v).
Proof.
  intros j r Hj. destruct (@calc_trace m p kl oh e Hlen Hswing Hpos Hlim Hoh Hcalc) as (w & A). pose proof (shown_final A _ Hj) as S. cbv zeta.
  split; [exact (S true Short false)|]. split; [exact (S true Short true)|]. split; [exact (S true Long false)|]. split; [exact (S true Long true)|].
  split; [exact (S false Short false)|exact (S false Short true)].
Qed.

(** The remaining kind: a broken long low is a CHoCH when the short scale's last break was one of a high. *)
Theorem C70_long_low : forall j r, nth_error (sData e) j = Some r ->
  shown false (fun k i => breaks false Long k i /\ ~ short_rising i) j (LowBOSLong (rVal r)) /\
  shown false (fun k i => breaks false Long k i /\ short_rising i) j (LowChoCHLong (rVal r)).
Proof.
  intros j r Hj. destruct (@calc_trace m p kl oh e Hlen Hswing Hpos Hlim Hoh Hcalc) as (w & A). pose proof (shown_final A _ Hj) as S.
  split; [exact (S false Long false)|exact (S false Long true)].
Qed.

(** ** C67: every order block belongs to a break: the bullish list to the short scale, the bearish list to the long one; a top block to
    a broken low, a bottom block to a broken high; and it is the candle [block_candle] describes. *)
Theorem C67_block_candles : exists atr, Atr (oHigh oh) (oLow oh) (oClose oh) 200 = Ok atr /\
  let from sc b := exists k i q, breaks (negb (bkTop b)) sc k i /\ block_candle (oHigh oh) (oLow oh) atr (bkTop b) k i q /\ block_of oh q b in
  Forall (from Short) (sBullish e) /\ Forall (from Long) (sBearish e).
Proof.
  destruct (@calc_trace m p kl oh e Hlen Hswing Hpos Hlim Hoh Hcalc) as (w & G & _). exists (atr200 m kl). split.
  { rewrite ohlc_is in Hoh. injection Hoh as <-. now apply atr200_is. }
  destruct (g_bull G) as [_ B1]. destruct (g_bear G) as [_ B2]. cbv zeta.
  split; [eapply Forall_impl; [|exact B1]|eapply Forall_impl; [|exact B2]]; intros b (k & i & q & _ & H); exists k, i, q; exact H.
Qed.

(** ... and no other list will do: each list is the one its history of breaks and closes determines. *)
Theorem C67_block_history : exists atr, Atr (oHigh oh) (oLow oh) (oClose oh) 200 = Ok atr /\
  blocks_after oh long atr (OrderBlockNumber p) Short (length kl) (sBullish e) /\
  blocks_after oh long atr (OrderBlockNumber p) Long (length kl) (sBearish e).
Proof.
  destruct (@calc_trace m p kl oh e Hlen Hswing Hpos Hlim Hoh Hcalc) as (w & G & _). exists (atr200 m kl).
  split; [rewrite ohlc_is in Hoh; injection Hoh as <-; now apply atr200_is|]. split; [exact (g_hbull G)|exact (g_hbear G)].
Qed.

(** In particular (the average true range is 0 for the first 200 candles, so that none of them is calm): a block that belongs to a
    break in the first 200 candles is the second candle of the series, wherever the break was. *)
Theorem C67_early_blocks : (forall c, In c kl -> exists h l, number m (cHigh c) h /\ number m (cLow c) l /\ (l <= h)%R) ->
  let from sc b := exists k i q, breaks (negb (bkTop b)) sc k i /\ block_of oh q b /\ ((i < 200)%nat -> q = 1%nat) in
  Forall (from Short) (sBullish e) /\ Forall (from Long) (sBearish e).
Proof.
  intros Hc from. destruct (@calc_trace m p kl oh e Hlen Hswing Hpos Hlim Hoh Hcalc) as (w & G & _).
  assert (A : forall q, (q < 200)%nat -> ~ calm (oHigh oh) (oLow oh) (atr200 m kl) q).
  { intros q Hq C. unfold calm in C. unfold atr200 in C. rewrite tab_nth in C by lia.
    unfold atr_out in C. destruct (Nat.ltb_spec q 200) as [_|]; [|lia].
    pose proof Hoh as E. rewrite ohlc_is in E. injection E as <-. cbn [oHigh oLow ohlc] in C.
    destruct (nth_error kl q) as [c|] eqn:Ec; [|apply nth_error_None in Ec; lia].
    assert (M : forall f : Candle -> @F (num m), nth q (map f kl) fzero = f c).
    { intros f. apply nth_error_nth. rewrite nth_error_map, Ec. reflexivity. }
    rewrite !M in C.
    destruct (Hc c (nth_error_In _ _ Ec)) as (h & l & Hh & Hl & Hhl). apply number_ext in Hh as [Dh Eh]. apply number_ext in Hl as [Dl El].
    pose proof (rnd_laws m) as R. rewrite (rl_lt R) in C.
    2:{ apply (al_sub (rl_A R)); assumption. }
    2:{ apply (al_mul (rl_A R)); apply (al_Z (rl_A R)). }
    rewrite (rl_sub R), (rl_mul R) in C; try apply (al_Z (rl_A R)); try assumption. rewrite Eh, El in C.
    change (@fzero (num m)) with (@ofZ (num m) 0) in C. rewrite !(rl_Z R) in C by lia. cbn [xsub xmul xneg xadd rdx] in C.
    rewrite (rd_le R) in C; [discriminate|]. lra. }
  destruct (g_bull G) as [_ B1]. destruct (g_bear G) as [_ B2].
  split; [eapply Forall_impl; [|exact B1]|eapply Forall_impl; [|exact B2]]; intros b (k & i & q & _ & H1 & H2 & H3); exists k, i, q;
    (split; [exact H1|]; split; [exact H3|]; intros Hi; destruct H2 as [(Q & Cq & _)|[Q _]]; [|exact Q]; exfalso; apply (A q); [lia|exact Cq]).
Qed.

(** ** C83: the strong or weak high (low) is the highest high (lowest low) since the latest turning point of the long scale, dated at
    its last occurrence; the high is strong when the last long break was one of a low, the low when it was one of a high. *)
Theorem C83_strong_weak : SwingLenght p < len kl ->
  let n := length kl in
  forall high k, latest (oHigh oh) (oLow oh) long high Long k (n - 1) ->
  exists mark x y, mark = mkRow (unix (nth x (oTime oh) 0)) y /\ extreme_since (oHigh oh) (oLow oh) high k n x y /\
    (against high Long n -> mark = if high then sStrongHigh e else sStrongLow e) /\
    (~ against high Long n -> mark = if high then sWeakHigh e else sWeakLow e).
Proof.
  intros Hl n high k Hk. destruct (@calc_trace m p kl oh e Hlen Hswing Hpos Hlim Hoh Hcalc) as (v & G & X1 & X2 & M).
  destruct (M ltac:(unfold len in Hl; lia)) as [M1 M2].
  pose proof (@TR_against (num m) (ord_laws m) oh (atr200 m kl) n long (tab_length _ _) ltac:(unfold long; lia) Long n (lTrend v) high (g_tr G)) as T.
  destruct high.
  - destruct (X1 k Hk) as (q & Eq & HQ). exists (mkRow (unix (nth q (oTime oh) 0)) (lUp v)), q, (lUp v). split; [reflexivity|]. split; [exact HQ|].
    rewrite Eq, Nat2Z.id in M1. rewrite <- T. rewrite <- M1. destruct (lTrend v <? 0); split; congruence.
  - destruct (X2 k Hk) as (q & Eq & HQ). exists (mkRow (unix (nth q (oTime oh) 0)) (lDn v)), q, (lDn v). split; [reflexivity|]. split; [exact HQ|].
    rewrite Eq, Nat2Z.id in M2. rewrite <- T. rewrite <- M2. destruct (lTrend v >? 0); split; congruence.
Qed.
End Hyps.
Print Assumptions C70_kinds_partial.
Print Assumptions C70_long_low.
Print Assumptions C67_block_candles.
Print Assumptions C67_block_history.
Print Assumptions C67_early_blocks.
Print Assumptions C83_strong_weak.

(** ** The hypotheses are met: two superposed waves with all kinds of breaks *)
Definition zag (i : Z) : Z := 300 + Z.abs (i mod 14 - 7) * 5 + Z.abs (i mod 90 - 45) * 4 + Z.abs (i mod 37 - 18) * 3.
Definition zags (n : nat) : list (Candle (N := EX)) :=
  map (fun k => let i := Z.of_nat k in kd (zag i) (zag i + 1 + i mod 3) (zag i - 1) (zag i) 1 (60 * i)) (seq 0 n).
Definition EXm : Model := Float64 ex_lib.
Lemma zags_ok : positive_prices EXm (zags 260) /\ below_limit EXm (zags 260).
Proof.
  assert (H : forallb (fun c : Candle (N := EX) => (fzero <~ cHigh c) && (fzero <~ cLow c) && negb (cClose c <~ fzero) && (cLow c <=~ ofZ 99999999)) (zags 260) = true) by (vm_compute; reflexivity).
  rewrite forallb_forall in H. split; intros c Hc; specialize (H c Hc); apply andb_true_iff in H as [H H1]; [|exact H1];
    apply andb_true_iff in H as [H H2]; apply negb_true_iff in H2; apply andb_true_iff in H as [H3 H4]; repeat split; assumption.
Qed.
Definition smc_zags (n : nat) : res (Smc (N := EX)) := oh <- GetOHLC (zags n) ;; smc_Calculation (smc_params 20 3 1) oh smc_new.
Lemma smc_zags_ex n A (f : Smc -> A) a : rmap f (smc_zags n) = Ok a ->
  exists oh e, GetOHLC (zags n) = Ok oh /\ smc_Calculation (smc_params 20 3 1) oh smc_new = Ok e /\ f e = a.
Proof.
  unfold smc_zags. destruct (GetOHLC (zags n)) as [oh|]; [|discriminate]. cbn [bind].
  destruct (smc_Calculation _ oh smc_new) as [e|] eqn:E1; [|discriminate]. cbn [rmap bind]. intros E. injection E as E. exists oh, e. now repeat split.
Qed.
(** the number of rows in which each level is drawn *)
Definition drawn (e : Smc (N := EX)) : list Z :=
  map (fun f : SmcVal -> F => len (filter (fun r => negb (f (rVal r) ==~ fzero)) (sData e)))
    [HighBOSShort; HighCHoCHShort; HighBOSLong; HighCHoCHLong; LowBOSShort; LowChoCHShort; LowBOSLong; LowChoCHLong].
Example C70_hyp_drawn : rmap drawn (smc_zags 260) = Ok [7; 40; 0; 95; 87; 12; 83; 0].
Proof. vm_compute. reflexivity. Qed.
Example C83_hyp_marks : rmap (fun e => map (fun r => (ftrunc (rVal r), rTime r / second)) [sStrongHigh e; sWeakHigh e; sStrongLow e; sWeakLow e]) (smc_zags 260) =
  Ok [(516, 5040); (558, 10920); (350, 13860); (319, 7980)].
Proof. vm_compute. reflexivity. Qed.
Example C67_hyp_blocks : rmap (fun e => (map (fun b => (bkTop b, bkTime b / second)) (sBullish e), map (fun b => (bkTop b, bkTime b / second)) (sBearish e))) (smc_zags 260) =
  Ok ([(true, 60)], [(true, 60)]).
Proof. vm_compute. reflexivity. Qed.

(** ... and so the breaks of the theorems do exist in this series, and so do the turning points of C83. *)
Lemma drawn_some (e : Smc (N := EX)) (f : SmcVal (N := EX) -> @F EX) : 0 < len (filter (fun r => negb (f (rVal r) ==~ fzero)) (sData e)) ->
  exists j r, nth_error (sData e) j = Some r /\ f (rVal r) <> fzero.
Proof.
  intros H. destruct (filter _ (sData e)) as [|r l] eqn:E; [discriminate|].
  assert (I : In r (r :: l)) by (left; reflexivity). rewrite <- E in I. apply filter_In in I as [I Hr]. apply In_nth_error in I as [j Hj].
  exists j, r. split; [exact Hj|]. intros Z. rewrite Z in Hr. vm_compute in Hr. discriminate.
Qed.
Lemma shown_some (N : Num) hs ls high P j y : @shown N hs ls high P j y -> y <> fzero -> exists k i, P k i.
Proof. intros [(k & i & H & _)|[H _]] Hy; [exists k, i; exact H|contradiction]. Qed.
Lemma latest_later (N : Num) hs ls long high sc k i j : @latest N hs ls long high sc k i -> (i <= j)%nat -> exists k', latest hs ls long high sc k' j.
Proof.
  intros (T & L & _) Hj.
  assert (H : forall d, (exists k', turn hs ls long high sc k' /\ (k' + span long sc <= j)%nat /\ (j <= k' + d)%nat) -> exists k', latest hs ls long high sc k' j).
  { induction d as [|d IH]; intros (k' & T' & L' & D).
    - exists k'. repeat split; try assumption; try apply T'. intros. lia.
    - destruct (Classical_Prop.classic (exists k2, turn hs ls long high sc k2 /\ (k2 + span long sc <= j)%nat /\ (j <= k2 + d)%nat)) as [E|E]; [exact (IH E)|].
      exists k'. split; [exact T'|]. split; [exact L'|]. intros k2 T2 L2. destruct (Nat.le_gt_cases k2 k') as [C|C]; [exact C|].
      exfalso. apply E. exists k2. repeat split; try assumption; try apply T2. lia. }
  apply (H j). exists k. split; [exact T|]. split; lia.
Qed.
Example C70_hyp : exists oh e, GetOHLC (zags 260) = Ok oh /\ smc_Calculation (smc_params 20 3 1) oh smc_new = Ok e /\
  let breaks := breaks (oHigh oh) (oLow oh) (oClose oh) 20 in let against := against (oHigh oh) (oLow oh) (oClose oh) 20 in
  (exists k i, breaks true Short k i /\ ~ against true Short i) /\ (exists k i, breaks true Short k i /\ against true Short i) /\
  (exists k i, breaks true Long k i /\ against true Long i) /\ (exists k i, breaks false Short k i /\ ~ against false Short i) /\
  (exists k i, breaks false Short k i /\ against false Short i) /\
  (exists k i, breaks false Long k i /\ ~ short_rising (oHigh oh) (oLow oh) (oClose oh) 20 i) /\
  (exists k, latest (oHigh oh) (oLow oh) 20 true Long k 259) /\ (exists k, latest (oHigh oh) (oLow oh) 20 false Long k 259).
Proof.
  destruct (@smc_zags_ex 260 _ drawn _ C70_hyp_drawn) as (oh & e & Eo & Ee & D). exists oh, e. split; [exact Eo|]. split; [exact Ee|].
  injection D as D1 D2 D3 D4 D5 D6 D7 D8. destruct zags_ok as [P1 P2].
  assert (L : (200 < length (zags 260))%nat) by (unfold zags; rewrite map_length, seq_length; lia).
  pose proof (@C70_kinds_partial EXm (smc_params 20 3 1) (zags 260) oh e L ltac:(cbn; lia) P1 P2 Eo Ee) as K.
  pose proof (@C70_long_low EXm (smc_params 20 3 1) (zags 260) oh e L ltac:(cbn; lia) P1 P2 Eo Ee) as K2.
  change (Z.to_nat (SwingLenght (smc_params 20 3 1))) with 20%nat in K, K2. cbv zeta in K |- *.
  assert (A : forall (f : SmcVal (N := EX) -> @F EX) z, len (filter (fun r => negb (f (rVal r) ==~ fzero)) (sData e)) = z -> 0 < z -> exists j r, nth_error (sData e) j = Some r /\ f (rVal r) <> fzero).
  { intros f z Hz Hp. apply drawn_some. lia. }
  destruct (A _ _ D1 ltac:(lia)) as (j1 & r1 & J1 & F1). destruct (A _ _ D2 ltac:(lia)) as (j2 & r2 & J2 & F2).
  destruct (A _ _ D4 ltac:(lia)) as (j4 & r4 & J4 & F4). destruct (A _ _ D5 ltac:(lia)) as (j5 & r5 & J5 & F5).
  destruct (A _ _ D6 ltac:(lia)) as (j6 & r6 & J6 & F6). destruct (A _ _ D7 ltac:(lia)) as (j7 & r7 & J7 & F7).
  destruct (K _ _ J1) as (K1 & _). apply shown_some in K1; [|exact F1].
  destruct (K _ _ J2) as (_ & K3 & _). apply shown_some in K3; [|exact F2].
  destruct (K _ _ J4) as (_ & _ & _ & K4 & _). apply shown_some in K4; [|exact F4].
  destruct (K _ _ J5) as (_ & _ & _ & _ & K5 & _). apply shown_some in K5; [|exact F5].
  destruct (K _ _ J6) as (_ & _ & _ & _ & _ & K6). apply shown_some in K6; [|exact F6].
  destruct (K2 _ _ J7) as (K7 & _). apply shown_some in K7; [|exact F7].
  assert (B : forall high k i, breaks (oHigh oh) (oLow oh) (oClose oh) 20 high Long k i -> exists k', latest (oHigh oh) (oLow oh) 20 high Long k' 259).
  { intros high k i [(La & [C _] & _) _]. apply (latest_later La).
    pose proof Eo as Eo'. rewrite (ohlc_is EXm) in Eo'. injection Eo' as Eo'. rewrite <- Eo' in C. cbn [oClose ohlc] in C. rewrite map_length in C.
    unfold zags in C. rewrite map_length, seq_length in C. lia. }
  split; [exact K1|]. split; [exact K3|]. split; [exact K4|]. split; [exact K5|]. split; [exact K6|]. split; [exact K7|].
  split; [destruct K4 as (k & i & H & _)|destruct K7 as (k & i & H & _)]; exact (B _ _ _ H).
Qed.
