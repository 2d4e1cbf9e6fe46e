(** * PropBands: property C89, at which price the lines of SuperTrend and
    PivotPointSuperTrend stand. *)
From Coq Require Import Reals Lra Classical_Prop.
From Verif Require Import Base Num Order OrderMore B64 XReal Lits Containers Ta TaTools TaOrd SpecTa SpecNum Sides Klines
  KlineProofs3 IndBase IndTrend IndTools IndSides SpecInd IndSignals SpecInd2 IndForms IndForms2 IndFormsSpec IndMachines PropInd1 RSum TaAvg TaRange XrMore.
Set Implicit Arguments.
Open Scope Z_scope.

Local Notation highs := (map (fun c => cHigh c)).
Local Notation lows := (map (fun c => cLow c)).
Local Notation closes := (map (fun c => cClose c)).

(** ** Specification *)
Section Spec.
Context {N : Num}.
(** the lower line: [width] under [middle], but not lower than yesterday's lower line
    while yesterday's close was above that line *)
Definition lower_line (middle width yclose yline : F) : F :=
  if yclose >~ yline then fmax (middle -~ width) yline else middle -~ width.
(** the upper line, mirrored *)
Definition upper_line (middle width yclose yline : F) : F :=
  if yclose <~ yline then fmin (middle +~ width) yline else middle +~ width.
(** the pivot confirmed on a bar: a high one counts before a low one; 0 for none *)
Definition confirmed (ph pl : F) : F := if ph >~ ofZ 0 then ph else if pl >~ ofZ 0 then pl else ofZ 0.
(** the centre line: unchanged without a new pivot; the first pivot; then two thirds
    the old centre and one third the new pivot *)
Definition next_centre (centre pivot : F) : F :=
  if pivot ==~ ofZ 0 then centre else if centre ==~ ofZ 0 then pivot else (centre *~ ofZ 2 +~ pivot) /~ ofZ 3.
(** the centre line on bar i, from the pivots confirmed on each bar *)
Fixpoint centre_at (ph pl : list F) (i : nat) : F :=
  match i with
  | O => ofZ 0
  | S j => next_centre (centre_at ph pl j) (confirmed (nth i ph (ofZ 0)) (nth i pl (ofZ 0)))
  end.
End Spec.

(** ** The rows *)
Section ST.
Context {N : Num}.
Lemma supertrend_levels p kl (rows : list (row STV)) : rows_of I_SuperTrend p kl = Ok rows ->
  exists atr, (if stChange p then Atr (highs kl) (lows kl) (closes kl) (stPeriod p) = Ok atr
               else exists natr, Natr (highs kl) (lows kl) (closes kl) (stPeriod p) = Ok natr /\ Sma (stPeriod p) natr = Ok atr) /\
  length rows = length kl /\
  (forall r, nth_error rows 0 = Some r -> rVal r = mkSTV fzero fzero fzero fzero) /\
  forall i r r', nth_error rows (S i) = Some r -> nth_error rows i = Some r' ->
    exists a t', nth_error atr (S i) = Some a /\ let s := st_step (stMult p) ((cHigh (cn kl (S i)) +~ cLow (cn kl (S i))) /~ ofZ 2) a (cClose (cn kl i)) (cClose (cn kl (S i)))
        (mkSTRow (sUp (rVal r')) (sUpBegin (rVal r')) (sDn (rVal r')) (sDnBegin (rVal r')) t') in
      rVal r = mkSTV (r_up s) (r_upb s) (r_dn s) (r_dnb s).
Proof.
  unfold rows_of, GetData, I_SuperTrend; cbn [len length Z.of_nat Z.eqb Calculation Val Param]. unfold supertrend_calc. T_steps.
  unfold HL2. rewrite percandle_T. cbn [bind]. intros E. apply bind_ok in E as (sr & Es & E). unfold len in E. rewrite tab_length in E.
  apply make_rows_inv in E as [El E]; [|lia].
  unfold supertrend in Es. cbn [oHigh oLow oClose OH] in Es. rewrite len_tab, make_tab in Es. cbn [bind] in Es.
  apply bind_ok in Es as (atr & Ea & Es). apply bind_ok in Es as (rows0 & E0 & Es). rewrite len_tab in *.
  exists atr. split.
  { unfold st_atr in Ea. cbn [oHigh oLow oClose OH] in Ea. rewrite !cmap. destruct (stChange p); [exact Ea|].
    apply bind_ok in Ea as (natr & En & Ea). eauto. }
  split; [exact El|].
  assert (L0 : length rows0 = length kl /\ (forall x, nth_error rows0 0 = Some x -> x = mkSTRow fzero fzero fzero fzero (ofZ 1))).
  { destruct (Z.ltb_spec 0 (Z.of_nat (length kl))).
    - apply set_inv in E0 as [_ ->]. rewrite upd_length, repeat_length. split; [reflexivity|]. intros x.
      change (Z.to_nat 0) with 0%nat. rewrite nth_error_upd_eq by (rewrite repeat_length; lia). congruence.
    - injection E0 as <-. rewrite repeat_length. split; [reflexivity|]. intros x Hx. destruct kl; cbn in *; [discriminate|lia]. }
  destruct L0 as [L0 L1]. apply scan_inv in Es as (S1 & S2 & S3); [|lia|lia].
  assert (V : forall i r, nth_error rows i = Some r -> exists s, nth_error sr i = Some s /\ rVal r = mkSTV (r_up s) (r_upb s) (r_dn s) (r_dnb s)).
  { intros i r Hr. destruct (E i r Hr) as [_ Z2]. destruct (Z2 ltac:(lia)) as [_ Z3]. apply bind_ok in Z3 as (s & Eg & Z3). injection Z3 as Z3.
    apply get_ok_iff in Eg as [_ Eg]. rewrite Nat2Z.id in Eg. eauto. }
  split.
  - intros r Hr. apply V in Hr as (s & Hs & ->). rewrite S2 in Hs. apply L1 in Hs as ->. reflexivity.
  - intros i r r' Hr Hr'. apply V in Hr as (s & Hs & ->). apply V in Hr' as (s' & Hs' & ->). cbn [sUp sUpBegin sDn sDnBegin].
    assert (S i < length kl)%nat by (rewrite <- L0, <- S1; apply nth_error_Some; congruence).
    destruct (S3 _ _ (le_n_S 0 i (Nat.le_0_l i)) Hs) as (prev & P1 & P2). cbn [pred] in P1. rewrite Hs' in P1. injection P1 as <-.
    apply bind_ok in P2 as (src & Ec & P2). apply bind_ok in P2 as (a & Eat & P2). apply bind_ok in P2 as (cp & Ecp & P2).
    apply bind_ok in P2 as (c & Ecc & P2). injection P2 as P2.
    rewrite get_tab in Ec by lia. rewrite get_tabp in Ecp by lia. rewrite get_tab in Ecc by lia.
    injection Ec as <-. injection Ecp as <-. injection Ecc as <-. exists a, (r_trend s'). 
    apply get_ok_iff in Eat as [_ Eat]. rewrite Nat2Z.id in Eat. split; [exact Eat|].
    cbn zeta. cbn [pred] in P2. destruct s' as [u ub d db tt'].
    cbn [r_up r_upb r_dn r_dnb r_trend]. rewrite P2. auto.
Qed.

Lemma ppst_levels p kl (rows : list (row STV)) : rows_of I_PPST p kl = Ok rows -> 
  exists ph pl atr, PivotHigh (highs kl) (ppPeriod p) (ppPeriod p) = Ok ph /\ PivotLow (lows kl) (ppPeriod p) (ppPeriod p) = Ok pl /\
    Atr (highs kl) (lows kl) (closes kl) (ppAtr p) = Ok atr /\ length rows = length kl /\
  exists (sr : list PPRow), length sr = length kl /\ (forall s, nth_error sr 0 = Some s -> s = pp_zero) /\
  (forall i r s, nth_error rows i = Some r -> nth_error sr i = Some s -> rVal r = p_out s) /\
  forall i s s', nth_error sr (S i) = Some s -> nth_error sr i = Some s' ->
    exists h l a, nth_error ph (S i) = Some h /\ nth_error pl (S i) = Some l /\ nth_error atr (S i) = Some a /\
      s = pp_step (ppFactor p) h l a (cClose (cn kl i)) (cClose (cn kl (S i))) s'.
Proof.
  unfold rows_of, GetData, I_PPST; cbn [len length Z.of_nat Z.eqb Calculation Val Param]. unfold ppst_calc. T_steps.
  intros E. apply bind_ok in E as (sr & Es & E). unfold len in E. rewrite tab_length in E.
  apply make_rows_inv in E as [El E]; [|lia].
  unfold ppsupertrend in Es. cbn [oHigh oLow oClose OH] in Es. 
  apply bind_ok in Es as (ph & Eph & Es). apply bind_ok in Es as (pl & Epl & Es). apply bind_ok in Es as (atr & Ea & Es).
  rewrite len_tab, make_tab in Es. cbn [bind] in Es.
  exists ph, pl, atr. rewrite !cmap. do 3 (split; [assumption|]). split; [exact El|].
  apply scan_inv in Es as (S1 & S2 & S3); [|rewrite repeat_length; lia|lia]. rewrite repeat_length in S1. exists sr. split; [exact S1|].
  assert (Z0 : forall s, nth_error sr 0 = Some s -> s = pp_zero).
  { intros s Hs. assert (0 < length kl)%nat by (eapply some_lt; eassumption).
    rewrite S2, nth_error_repeat in Hs by lia. congruence. }
  split; [exact Z0|]. split.
  - intros i r s Hr Hs. destruct (E i r Hr) as [Z1 Z2]. destruct i as [|i].
    + rewrite (Z1 ltac:(lia)). rewrite (Z0 _ Hs). reflexivity.
    + destruct (Z2 ltac:(lia)) as [_ Z3]. apply bind_ok in Z3 as (s' & Eg & Z3). injection Z3 as <-.
      apply get_ok_iff in Eg as [_ Eg]. rewrite Nat2Z.id in Eg. congruence.
  - intros i s s' Hs Hs'. assert (S i < length kl)%nat by (eapply some_lt; eassumption).
    destruct (S3 _ _ (le_n_S 0 i (Nat.le_0_l i)) Hs) as (prev & P1 & P2). cbn [pred] in P1. rewrite Hs' in P1. injection P1 as <-.
    apply bind_ok in P2 as (c & Ec & P2). apply bind_ok in P2 as (h & Eh & P2). apply bind_ok in P2 as (l & Eg & P2).
    apply bind_ok in P2 as (cp & Ecp & P2). apply bind_ok in P2 as (a & Eat & P2). injection P2 as P2.
    rewrite get_tab in Ec by lia. rewrite get_tabp in Ecp by lia. injection Ec as <-. injection Ecp as <-.
    apply get_ok_iff in Eh as [_ Eh]. apply get_ok_iff in Eg as [_ Eg]. apply get_ok_iff in Eat as [_ Eat].
    rewrite Nat2Z.id in *. exists h, l, a. now rewrite P2.
Qed.
End ST.

(** ** C89 *)
(** [atr]: the average true range, or without [stChange] the moving average of the
    normalised one. A line that was NaN yesterday is replaced by today's plain one. *)
Theorem C89_SuperTrend (N : Num) (p : STP) (kl : list Candle) (rows : list (row STV)) :
  rows_of I_SuperTrend p kl = Ok rows ->
  exists atr,
  (if stChange p then Atr (highs kl) (lows kl) (closes kl) (stPeriod p) = Ok atr
   else exists natr, Natr (highs kl) (lows kl) (closes kl) (stPeriod p) = Ok natr /\ Sma (stPeriod p) natr = Ok atr) /\
  length rows = length kl /\
  (forall r, nth_error rows 0 = Some r -> sUp (rVal r) = ofZ 0 /\ sDn (rVal r) = ofZ 0) /\
  forall i r r' c c', nth_error rows (S i) = Some r -> nth_error rows i = Some r' ->
    nth_error kl (S i) = Some c -> nth_error kl i = Some c' ->
    exists a, nth_error atr (S i) = Some a /\
      let middle := (cHigh c +~ cLow c) /~ ofZ 2 in
      let width := ofZ (stMult p) *~ a in
      (nn (sUp (rVal r')) -> sUp (rVal r) = lower_line middle width (cClose c') (sUp (rVal r'))) /\
      (nn (sDn (rVal r')) -> sDn (rVal r) = upper_line middle width (cClose c') (sDn (rVal r'))).
Proof.
  intros E. destruct (@supertrend_levels N p kl rows E) as (atr & Ea & El & E0 & St). exists atr. split; [exact Ea|]. split; [exact El|].
  split; [intros r Hr; rewrite (E0 r Hr); now split|].
  intros i r r' c c' Hr Hr' Hc Hc'. destruct (St i r r' Hr Hr') as (a & t' & Ha & Hs). exists a. split; [exact Ha|]. cbn zeta in *.
  apply cn_some in Hc as <-. apply cn_some in Hc' as <-. rewrite Hs. cbn [sUp sDn]. unfold st_step, lower_line, upper_line. cbn [r_up r_dn].
  unfold nn, Nz. split; intros ->; reflexivity.
Qed.
Print Assumptions C89_SuperTrend.

(** The lines SuperTrend shows in an up trend are the lower one, in a down trend the
    upper one (C46); the centre between them follows the confirmed pivots. *)
Theorem C89_PivotPointSuperTrend (N : Num) (p : PPP) (kl : list Candle) (rows : list (row STV)) :
  rows_of I_PPST p kl = Ok rows ->
  exists ph pl atr,
  PivotHigh (highs kl) (ppPeriod p) (ppPeriod p) = Ok ph /\ PivotLow (lows kl) (ppPeriod p) (ppPeriod p) = Ok pl /\
  Atr (highs kl) (lows kl) (closes kl) (ppAtr p) = Ok atr /\ length rows = length kl /\
  exists (lower upper : list F) (dir : list Z),
  length lower = length kl /\ length upper = length kl /\ length dir = length kl /\
  (forall x, nth_error lower 0 = Some x \/ nth_error upper 0 = Some x -> x = ofZ 0) /\
  (forall d, nth_error dir 0 = Some d -> d = 0) /\
  forall i r c c' l l' h h' d d',
    nth_error rows (S i) = Some r -> nth_error kl (S i) = Some c -> nth_error kl i = Some c' ->
    nth_error lower (S i) = Some l -> nth_error lower i = Some l' -> nth_error upper (S i) = Some h -> nth_error upper i = Some h' ->
    nth_error dir (S i) = Some d -> nth_error dir i = Some d' ->
    exists a, nth_error atr (S i) = Some a /\
      let m := centre_at ph pl (S i) in
      l = lower_line m (ppFactor p *~ a) (cClose c') l' /\
      h = upper_line m (ppFactor p *~ a) (cClose c') h' /\
      d = (if cClose c >~ h' then 1 else if cClose c <~ l' then -1 else d') /\
      sUp (rVal r) = (if (d =? 1) && (d' =? 1) then l else ofZ 0) /\
      sUpBegin (rVal r) = (if (d =? 1) && (d' =? -1) then l else ofZ 0) /\
      sDn (rVal r) = (if (d =? -1) && (d' =? -1) then h else ofZ 0) /\
      sDnBegin (rVal r) = (if (d =? -1) && (d' =? 1) then h else ofZ 0).
Proof.
  intros E. destruct (@ppst_levels N p kl rows E) as (ph & pl & atr & Eph & Epl & Ea & El & sr & Ls & Z0 & Out & St).
  exists ph, pl, atr. do 4 (split; [assumption|]).
  assert (Cn : forall i s, nth_error sr i = Some s -> p_center s = centre_at ph pl i).
  { intros i. induction i as [|i IH]; intros s Hs; [now rewrite (Z0 s Hs)|].
    destruct (nth_error sr i) as [s'|] eqn:Es'; [|apply nth_error_None in Es'; assert (S i < length sr)%nat by (apply nth_error_Some; congruence); lia].
    destruct (St i s s' Hs Es') as (x & y & a & Hx & Hy & Ha & ->). cbn [centre_at]. rewrite <- (IH s' eq_refl).
    rewrite (nth_error_nth _ _ _ Hx), (nth_error_nth _ _ _ Hy). unfold pp_step, next_centre, confirmed. cbn [p_center].
    destruct (_ ==~ _); reflexivity. }
  exists (map p_up sr), (map p_dn sr), (map p_trend sr). rewrite !map_length. do 3 (split; [assumption|]).
  split; [|split].
  - intros x Hx. rewrite !nth_error_map in Hx. destruct (nth_error sr 0) as [s|] eqn:Es; cbn [option_map] in Hx; [|destruct Hx as [?|?]; discriminate].
    rewrite (Z0 s eq_refl) in Hx. cbn in Hx. destruct Hx as [H|H]; injection H as <-; reflexivity.
  - intros d Hd. rewrite nth_error_map in Hd. destruct (nth_error sr 0) as [s|] eqn:Es; [|discriminate]. injection Hd as <-. now rewrite (Z0 s eq_refl).
  - intros i r c c' l l' h h' d d' Er Ec Ec' Ell El' Eh Eh' Ed Ed'. rewrite nth_error_map in *.
    destruct (nth_error sr (S i)) as [s|] eqn:Es; [|discriminate]. destruct (nth_error sr i) as [s'|] eqn:Es'; [|discriminate].
    cbn [option_map] in *. injection Ed as <-. injection Ed' as <-. injection Ell as <-. injection El' as <-. injection Eh as <-. injection Eh' as <-.
    cbv zeta. rewrite <- (Cn _ _ Es).
    rewrite (Out _ _ _ Er Es). destruct (St i s s' Es Es') as (x & y & a & Hx & Hy & Ha & ->). exists a. split; [assumption|].
    apply cn_some in Ec as <-. apply cn_some in Ec' as <-. unfold pp_step, lower_line, upper_line.
    cbn [p_trend p_up p_dn p_center p_out sUp sDn sUpBegin sDnBegin].
    do 3 (split; [reflexivity|]).
    set (T := if p_dn s' <~ cClose (cn kl (S i)) then 1 else if cClose (cn kl (S i)) <~ p_up s' then -1 else p_trend s').
    split; [destruct (T =? 1); reflexivity|]. split; [destruct (T =? 1); reflexivity|].
    split; destruct (Z.eqb_spec T (-1)) as [->|]; reflexivity.
Qed.
Print Assumptions C89_PivotPointSuperTrend.

(** Where that centre is, in exact arithmetic: nowhere (0) before the first pivot, and
    from then on between the lowest low and the highest high so far. *)
Theorem C89_centre_between (hs ls : list R) (n : nat) (ph pl : list (@F XR)) (i : nat) :
  length hs = length ls ->
  (forall j, (j < length hs)%nat -> (0 < nth j ls 0 <= nth j hs 0)%R) ->
  PivotHigh (N := XR) (fins hs) (Z.of_nat n) (Z.of_nat n) = Ok ph -> PivotLow (N := XR) (fins ls) (Z.of_nat n) (Z.of_nat n) = Ok pl ->
  (i < length hs)%nat ->
  exists m : R, centre_at (N := XR) ph pl i = Fin m /\
    ((forall j, (1 <= j <= i)%nat -> confirmed (N := XR) (nth j ph (ofZ 0)) (nth j pl (ofZ 0)) = Fin 0) /\ m = 0%R \/
     (exists j k, (j <= i)%nat /\ (k <= i)%nat /\ (nth j ls 0 <= m <= nth k hs 0)%R)).
Proof.
  intros HL HP Eh El.
  assert (PV : forall (xs : list R) pv j, (j < length xs)%nat ->
    (PivotHigh (N := XR) (fins xs) (Z.of_nat n) (Z.of_nat n) = Ok pv \/ PivotLow (N := XR) (fins xs) (Z.of_nat n) (Z.of_nat n) = Ok pv) ->
    nth j pv (ofZ 0) = Fin 0 \/ exists k, (k <= j)%nat /\ nth j pv (ofZ 0) = Fin (nth k xs 0)%R).
  { intros xs pv j Hj HE.
    assert (Q : (n + n <= j)%nat -> (feq (nth j pv (ofZ 0)) (nth (j - n) (fins xs) fzero)) = true -> exists k, (k <= j)%nat /\ nth j pv (ofZ 0) = Fin (nth k xs 0)%R).
    { intros Hn HQ. exists (j - n)%nat. split; [lia|]. rewrite fins_nth0 in HQ. destruct (nth j pv (ofZ 0)); try discriminate HQ.
      change (Reqb r (nth (j - n) xs 0)%R = true) in HQ. f_equal. now destruct (Reqb_spec r (nth (j - n) xs 0)%R). }
    destruct HE as [HE|HE].
    - destruct (@PivotHigh_spec XR XR_ord n n (fins xs) (fins_no_nan xs)) as (pv' & E' & _ & H'). rewrite HE in E'. injection E' as <-.
      destruct (H' j) as [H1 H2]; [now rewrite fins_length|].
      destruct (Nat.lt_ge_cases j (n + n)) as [Hl|Hl]; [left; exact (H1 Hl)|]. destruct (H2 Hl) as [H3 H4].
      destruct (classic (max_of (N := XR) (nth (j - n) (fins xs) fzero) (window (fins xs) j (S (n + n))))) as [M|M]; [|left; exact (H4 M)].
      right. exact (Q Hl (H3 M)).
    - destruct (@PivotLow_spec XR XR_ord n n (fins xs) (fins_no_nan xs)) as (pv' & E' & _ & H'). rewrite HE in E'. injection E' as <-.
      destruct (H' j) as [H1 H2]; [now rewrite fins_length|].
      destruct (Nat.lt_ge_cases j (n + n)) as [Hl|Hl]; [left; exact (H1 Hl)|]. destruct (H2 Hl) as [H3 H4].
      destruct (classic (min_of (N := XR) (nth (j - n) (fins xs) fzero) (window (fins xs) j (S (n + n))))) as [M|M]; [|left; exact (H4 M)].
      right. exact (Q Hl (H3 M)). }
  assert (CF : forall j, (j < length hs)%nat -> confirmed (N := XR) (nth j ph (ofZ 0)) (nth j pl (ofZ 0)) = Fin 0 \/
    exists k x, (k <= j)%nat /\ confirmed (N := XR) (nth j ph (ofZ 0)) (nth j pl (ofZ 0)) = Fin x /\ (nth k ls 0 <= x <= nth k hs 0)%R).
  { intros j Hj. unfold confirmed. 
    destruct (PV hs ph j Hj (or_introl Eh)) as [->|(k & Hk & ->)].
    - change (flt (Num := XR) (ofZ 0) (Fin 0)) with (Rltb 0 0). destruct (Rltb_spec 0 0); [lra|].
      destruct (PV ls pl j ltac:(lia) (or_intror El)) as [->|(k & Hk & ->)].
      + destruct (_ <~ _); now left.
      + destruct (_ <~ _); [|now left]. right. exists k, (nth k ls 0)%R. split; [exact Hk|]. split; [reflexivity|].
        specialize (HP k ltac:(lia)). lra.
    - specialize (HP k ltac:(lia)). destruct (_ <~ _) eqn:Q.
      + right. exists k, (nth k hs 0)%R. split; [exact Hk|]. split; [reflexivity|]. lra.
      + exfalso. change (Rltb 0 (nth k hs 0)%R = false) in Q. destruct (Rltb_spec 0 (nth k hs 0)%R); [discriminate|lra]. }
  induction i as [|i IH]; intros Hi.
  - exists 0%R. split; [reflexivity|]. left. split; [|reflexivity]. intros j Hj. lia.
  - destruct IH as (m & Em & Hm); [lia|]. cbn [centre_at]. rewrite Em.
    set (cf := confirmed (N := XR) (nth (S i) ph (ofZ 0)) (nth (S i) pl (ofZ 0))) in *.
    destruct (CF (S i) Hi) as [Q|(k & x & Hk & Q & Hx)]; fold cf in Q; rewrite Q.
    + exists m. split; [unfold next_centre; rewrite xr_ofZ, xr_eq; now destruct (Reqb_spec 0 0)|].
      destruct Hm as [[Hm ->]|(j & k & Hj & Hk & Hm)].
      * left. split; [|reflexivity]. intros j Hj. destruct (Nat.eq_dec j (S i)) as [->|]; [exact Q|apply Hm; lia].
      * right. exists j, k. repeat split; (lia || lra).
    + pose proof (HP k ltac:(lia)) as Hpk.
      assert (NC : next_centre (N := XR) (Fin m) (Fin x) = Fin (if Req_EM_T m 0 then x else (m * 2 + x) / 3)).
      { unfold next_centre. rewrite !xr_ofZ, !xr_eq. destruct (Reqb_spec x 0); [lra|]. destruct (Reqb_spec m 0), (Req_EM_T m 0); try contradiction; [reflexivity|].
        xr. reflexivity. }
      rewrite NC. eexists. split; [reflexivity|]. right.
      destruct (Req_EM_T m 0) as [Z|Z]; [exists k, k; repeat split; (lia || lra)|].
      destruct Hm as [[_ ->]|(j & q & Hj & Hq & Hm)]; [congruence|].
      exists (if Rle_dec m x then j else k), (if Rle_dec m x then k else q).
      destruct (Rle_dec m x); repeat split; (lia || lra).
Qed.
Print Assumptions C89_centre_between.
(** A market that turns: pivots of both kinds are confirmed, the centre moves by a third
    of the distance, and both lines are shown. *)
Definition turns : list (Candle (N := EX)) := flat [10; 13; 10; 9; 10; 14; 18; 23; 18; 12; 6; 2; 8; 15].
Example C89_hyp :
  let ph := fzs [0; 0; 14; 0; 0; 0; 0; 0; 24; 0; 0; 0; 0; 0] in
  let pl := fzs [0; 0; 0; 0; 8; 0; 0; 0; 0; 0; 0; 0; 1; 0] in
  PivotHigh (highs turns) 1 1 = Ok ph /\ PivotLow (lows turns) 1 1 = Ok pl /\
  map (centre_at ph pl) [1; 2; 3; 4; 5; 7; 8; 11; 12; 13]%nat = fzs [0; 14; 14; 12; 12; 12; 16; 16; 11; 11] /\
  rmap (map (fun r => negb (sUp (rVal r) ==~ fz 0))) (rows_of (N := EX) I_PPST (mkPPP 1 2 (fz 1)) turns) = Ok [false; false; true; false; false; false; false; true; true; true; false; false; false; false] /\
  rmap (map (fun r => negb (sDn (rVal r) ==~ fz 0))) (rows_of (N := EX) I_PPST (mkPPP 1 2 (fz 1)) turns) = Ok [false; false; false; false; true; true; false; false; false; false; false; true; true; true].
Proof. repeat split; vm_compute; reflexivity. Qed.
