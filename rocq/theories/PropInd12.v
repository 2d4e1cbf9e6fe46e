(** * PropInd12: properties C79 (commodity channel indices), C80 (chandelier exit) and C81 (linear regression candles).

    The vocabulary is in SpecInd2.v and SpecTa.v. *)
From Coq Require Import Reals Lra.
From Verif Require Import Base Num Order B64 XReal RSum Rounding FloatLaws Lits Containers Ta TaTools TaElem TaAvg SpecTa TaDev TaReg TaCci TaMore Sides Klines
  KlineProofs3 IndBase IndTrend IndChannel IndVolume IndOsc IndTools SpecInd2 IndForms IndForms2 IndForms3 IndFormsSpec IndExact PropInd1.
Set Implicit Arguments.
Open Scope Z_scope.

Local Notation opens := (map (fun c => cOpen c)).
Local Notation closes := (map (fun c => cClose c)).
Local Notation highs := (map (fun c => cHigh c)).
Local Notation lows := (map (fun c => cLow c)).

Lemma append_list (N : Num) (kl : list Candle) (xs : list F) : length xs = length kl ->
  rmap (column (fun v => v)) (append_rows (time_at kl) (len xs) (get xs) []) = Ok xs.
Proof.
  intros L. unfold len. rewrite (@append_rows_T _ _ kl _ _ _ (fun i => nth i xs fzero) _ L).
  - cbn [rmap app]. rewrite column_T, <- L. f_equal. symmetry. apply tab_of_list.
  - intros. now apply time_at_T.
  - intros i Hi. now rewrite (@get_nat _ xs i fzero) by lia.
Qed.

(** ** C79 *)
Definition typical_price {N : Num} (c : Candle) : F := (cHigh c +~ cLow c +~ cClose c) /~ ofZ 3.
(** Cci reports what ta.CCI (C19) makes of the typical prices, AiCoinCCI what ta.AiCoinCCI makes of the closes; both panic
    exactly when those do. *)
Theorem C79_objects (N : Num) (p : CciP) (q : Z) (f : F) (kl : list Candle) :
  rmap (column (fun v => v)) (rows_of I_Cci p kl) = CCI (map typical_price kl) (cciPeriod p) (cciSma p) /\
  rmap (column (fun v => v)) (rows_of I_AiCoinCCI q kl) = AiCoinCCI (closes kl) q f.
Proof.
  split.
  - unfold rows_of, GetData, I_Cci. cbn [len length Z.of_nat Z.eqb Calculation Val Param]. unfold cci_calc.
    unfold HLC3. rewrite percandle_T. cbn [bind]. rewrite cmap.
    change (fun i => (cHigh (cn kl i) +~ cLow (cn kl i) +~ cClose (cn kl i)) /~ ofZ 3) with (fun i => typical_price (cn kl i)).
    destruct (CCI _ _ _) as [r|] eqn:E; [|reflexivity]. cbn [bind]. apply CCI_length in E. rewrite tab_length in E. now apply append_list.
  - unfold rows_of, GetData, I_AiCoinCCI. cbn [len length Z.of_nat Z.eqb Calculation Val Param]. unfold aicoin_calc.
    rewrite OHLC_T. cbn [bind oClose OH]. rewrite cmap, (@AiCoinCCI_factor N _ _ f (lit 15 1000)).
    destruct (AiCoinCCI _ _ _) as [r|] eqn:E; [|reflexivity]. cbn [bind]. apply AiCoinCCI_length in E. rewrite tab_length in E. now apply append_list.
Qed.
Print Assumptions C79_objects.
(** In exact arithmetic, with equal periods: 0 before the window is full, then the deviation of the newest value from the mean of the
    last p, in units of 0.015 mean absolute deviations. When all p values are equal, Cci is NaN and AiCoinCCI is 0. *)
Theorem C79_exact (p : nat) (kl : list (Candle (N := XR))) (xs cs : list R) : (1 <= p)%nat ->
  map typical_price kl = fins xs -> closes kl = fins cs ->
  let index (flat : @F XR) (ys : list R) i := if (S i <? p)%nat then Fin 0 else
    let w := window ys i p in
    if Reqb (mad w) 0 then flat else Fin ((nth i ys 0 - mean w) / (15 / 1000 * mad w))%R in
  rmap (column (fun v => v)) (rows_of I_Cci (mkCciP (Z.of_nat p) (Z.of_nat p)) kl) = Ok (tab (length kl) (index NaN xs)) /\
  rmap (column (fun v => v)) (rows_of I_AiCoinCCI (Z.of_nat p) kl) = Ok (tab (length kl) (index (Fin 0) cs)).
Proof.
  intros Hp Hx Hc index. assert (Lx : length kl = length xs) by (rewrite <- (fins_length xs), <- Hx; now rewrite map_length).
  assert (Lc : length kl = length cs) by (rewrite <- (fins_length cs), <- Hc; now rewrite map_length).
  destruct (@C79_objects XR (mkCciP (Z.of_nat p) (Z.of_nat p)) (Z.of_nat p) (ofZ 0) kl) as [E1 E2]. cbn [cciPeriod cciSma] in E1.
  split.
  - refine (eq_trans E1 _). rewrite Hx, Lx. exact (@CCI_exact p xs Hp).
  - refine (eq_trans E2 _). rewrite Hc, Lc. exact (@AiCoinCCI_exact p cs _ Hp).
Qed.
Print Assumptions C79_exact.
Theorem C79_panics (N : Num) (p : CciP) (q : Z) (kl : list Candle) :
  (rows_of I_Cci p kl = Panic <-> cciPeriod p <= 0 \/ cciSma p < 0 /\ kl <> []) /\ rows_of I_AiCoinCCI q kl <> Panic.
Proof.
  destruct (@C79_objects N p q (ofZ 0) kl) as [E1 E2]. split.
  - assert (Q : forall A B (f : A -> B) r, rmap f r = Panic <-> r = Panic) by (intros A B f [x|]; cbn; split; congruence).
    rewrite <- (Q _ _ (column (fun v => v))), E1.
    destruct (Z_le_gt_dec (cciPeriod p) 0) as [Hp|Hp]; [rewrite CCI_panic by exact Hp; tauto|].
    destruct (Z_lt_le_dec (cciSma p) 0) as [Hs|Hs].
    + destruct kl as [|c kl].
      * cbn [map]. unfold CCI. cbn [len length Z.of_nat make Z.ltb Z.compare Z.to_nat repeat bind].
        assert (S0 : Sma (cciSma p) [] = Ok []) by reflexivity. rewrite S0. cbn [bind].
        assert (M0 : MeanDeviation [] (cciPeriod p) [] = Ok []).
        { unfold MeanDeviation. cbn [len length Z.of_nat make Z.ltb Z.compare Z.to_nat repeat bind]. rewrite for_empty by lia. reflexivity. }
        rewrite M0. cbn [bind]. rewrite for_empty by lia. split; [discriminate|intros [?|[_ ?]]; [lia|congruence]].
      * unfold CCI. rewrite make_len. cbn [bind]. rewrite Sma_neg; [|exact Hs|discriminate]. cbn [bind]. split; [right; split; [exact Hs|discriminate]|reflexivity].
    + rewrite <- (Z2Nat.id (cciPeriod p)), <- (Z2Nat.id (cciSma p)) by lia. rewrite CCI_gen by lia. split; [discriminate|lia].
  - intros Q. rewrite Q in E2. cbn [rmap] in E2. destruct (@MA_Dev_shape N q (closes kl)) as ((ma & A1 & A2) & (md & D1 & D2) & _).
    rewrite (@AiCoinCCI_gen N (closes kl) q (ofZ 0) ma md A1 D1 A2 D2) in E2. discriminate.
Qed.
Print Assumptions C79_panics.
Example C79_hyp :
  rmap (map (fun x => (rVal x ==~ ofZ 0, ofZ 60 <~ rVal x))) (rows_of (N := EX) I_Cci (mkCciP 2 2) [kd 2 3 1 2 1 60; kd 3 4 2 3 1 120; kd 3 4 2 3 1 180]) =
    Ok [(true, false); (false, true); (false, false)] /\
  rmap (map (fun x => (rVal x ==~ ofZ 0, ofZ 60 <~ rVal x))) (rows_of (N := EX) I_AiCoinCCI 2 [kd 2 3 1 2 1 60; kd 3 4 2 3 1 120; kd 3 4 2 3 1 180]) =
    Ok [(true, false); (false, true); (true, false)].
Proof. split; vm_compute; reflexivity. Qed.

(** ** C80 *)
(** Three average true ranges below the highest high and above the lowest low of the last q bars; the average true range is the
    one the object's data reports (C45, C73_Rma), whether or not Calculation was called before. *)
Theorem C80_chandelier (N : Num) (O : OrdLaws N) (p q : Z) (kl : list Candle) (data : list (row AtrV)) : 1 <= q ->
  no_nan (highs kl) -> no_nan (lows kl) -> rows_of I_Atr p kl = Ok data ->
  exists tops bottoms,
    length tops = length kl /\ length bottoms = length kl /\
    (forall i t, nth_error tops i = Some t -> max_of t (window (highs kl) i (Z.to_nat q))) /\
    (forall i b, nth_error bottoms i = Some b -> min_of b (window (lows kl) i (Z.to_nat q))) /\
    let atrs := column (fun v => aAtr v) data in
    let long := pointwise (fun t a => t -~ a *~ ofZ 3) tops atrs in
    let short := pointwise (fun b a => b +~ a *~ ofZ 3) bottoms atrs in
    ChandelierExit p kl data q = Ok (long, short) /\ ChandelierExit p kl [] q = Ok (long, short).
Proof.
  intros Hq Hh Hl E. rewrite cmap in Hh, Hl.
  destruct (@Max_T N O q _ _ Hq Hh) as (top & ET & HT). destruct (@Min_T N O q _ _ Hq Hl) as (bot & EB & HB).
  exists (tab (length kl) top), (tab (length kl) bot). rewrite !tab_length. do 2 (split; [reflexivity|]).
  split; [intros i t Hi; apply tab_some in Hi as [Hi ->]; rewrite cmap; apply HT, Hi|].
  split; [intros i t Hi; apply tab_some in Hi as [Hi ->]; rewrite cmap; apply HB, Hi|]. cbv zeta.
  assert (Q : ChandelierExit p kl data q = ChandelierExit p kl [] q).
  { assert (E0 : atr_calc p kl [] = Ok data) by exact E.
    unfold ChandelierExit. change (len (@nil (row AtrV)) =? 0) with true. cbv iota. rewrite E0.
    destruct (Z.eqb_spec (len data) 0) as [Hz|Hz]; [|reflexivity].
    assert (data = []) as -> by (destruct data; [reflexivity|unfold len in Hz; cbn [length] in Hz; lia]). rewrite E0. reflexivity. }
  rewrite <- Q. enough (X : ChandelierExit p kl data q = Ok (pointwise (fun t a : F => t -~ a *~ ofZ 3) (tab (length kl) top) (column (fun v => aAtr v) data),
    pointwise (fun t a : F => t +~ a *~ ofZ 3) (tab (length kl) bot) (column (fun v => aAtr v) data))) by (split; exact X).
  rewrite Q. unfold ChandelierExit. change (len (@nil (row AtrV)) =? 0) with true. cbv iota.
  assert (E0 : atr_calc p kl [] = Ok data) by exact E. rewrite E0. cbn [bind].
  rewrite Atr_ind_T in E. injection E as <-. rewrite OHLC_T. cbn [bind oHigh oLow OH]. rewrite ET. cbn [bind]. rewrite EB. cbn [bind].
  rewrite len_tab, !make_tab. cbn [bind]. rewrite column_T, !pointwise_T. rewrite <- !tab_const, len_tab.
  set (f := fun i => top i -~ aAtr (atrG p kl i) *~ ofZ 3). set (g := fun i => bot i +~ aAtr (atrG p kl i) *~ ofZ 3).
  change 0 with (Z.of_nat 0).
  rewrite (@for_nat _ (fun i => (partial fzero f (length kl) i, partial fzero g (length kl) i)) 0 (length kl)).
  - rewrite !partial_full. reflexivity.
  - lia.
  - rewrite !partial_0, <- !tab_const. reflexivity.
  - intros i Hi. rewrite !get_tab by lia. cbn [bind rVal]. rewrite (@partial_set _ _ _ _ _ (f i)) by (lia || reflexivity). cbn [bind].
    rewrite (@partial_set _ _ _ _ _ (g i)) by (lia || reflexivity). reflexivity.
Qed.
Print Assumptions C80_chandelier.
Example C80_hyp : rmap (fun ls => (map (fun v => v ==~ fz 4) (fst ls), map (fun v => v ==~ fz 14) (snd ls)))
  (ChandelierExit (N := EX) 1 [kd 9 10 8 9 1 60; kd 9 10 8 9 1 120] [] 2) = Ok ([false; true], [false; true]).
Proof. vm_compute. reflexivity. Qed.

(** ** C81 *)
(** Every line is what ta.LinearReg (C15) makes of that price; the signal is the simple or exponential average of the close line. *)
Lemma Ema_of (N : Num) p (xs : list F) : exists ys, Ema p xs = Ok ys /\ ema_of p xs ys.
Proof. rewrite (tab_of_list xs fzero). rewrite Ema_T. eexists. split; [reflexivity|]. apply ema_of_T. Qed.
Theorem C81_candles (N : Num) (p : LrcP) (kl : list Candle) (rows : list (row LrcV)) : rows_of I_LRC p kl = Ok rows ->
  LinearReg (opens kl) (lrLength p) = Ok (column (fun v => lcOpen v) rows) /\
  LinearReg (highs kl) (lrLength p) = Ok (column (fun v => lcHigh v) rows) /\
  LinearReg (lows kl) (lrLength p) = Ok (column (fun v => lcLow v) rows) /\
  LinearReg (closes kl) (lrLength p) = Ok (column (fun v => lcClose v) rows) /\
  (if lrSMA p then Sma (lrSmooth p) (column (fun v => lcClose v) rows) = Ok (column (fun v => lcSignal v) rows)
   else ema_of (lrSmooth p) (column (fun v => lcClose v) rows) (column (fun v => lcSignal v) rows)).
Proof.
  unfold rows_of, GetData, I_LRC. cbn [len length Z.of_nat Z.eqb Calculation Val Param]. unfold lrc_calc. rewrite OHLC_T.
  cbn [bind oOpen oHigh oLow oClose oTime OH]. rewrite !cmap.
  assert (LL : forall f r, LinearReg (tab (length kl) f) (lrLength p) = Ok r -> length r = length kl)
    by (intros f r Q; apply lr_length in Q; now rewrite tab_length in Q).
  destruct (LinearReg _ _) as [bo|] eqn:E1 at 1; cbn [bind]; [|discriminate].
  destruct (LinearReg (tab (length kl) (fun i => cHigh (cn kl i))) _) as [bh|] eqn:E2; cbn [bind]; [|discriminate].
  destruct (LinearReg (tab (length kl) (fun i => cLow (cn kl i))) _) as [bl|] eqn:E3; cbn [bind]; [|discriminate].
  destruct (LinearReg (tab (length kl) (fun i => cClose (cn kl i))) _) as [bc|] eqn:E4; cbn [bind]; [|discriminate].
  rewrite E1. apply LL in E1, E2, E3, E4.
  assert (S0 : (if lrSMA p then Sma (lrSmooth p) bc else Ema (lrSmooth p) bc) = Panic \/
    exists sg, (if lrSMA p then Sma (lrSmooth p) bc else Ema (lrSmooth p) bc) = Ok sg /\ length sg = length kl /\
      if lrSMA p then Sma (lrSmooth p) bc = Ok sg else ema_of (lrSmooth p) bc sg).
  { destruct (lrSMA p).
    - destruct (Sma (lrSmooth p) bc) as [sg|] eqn:Es; [right|now left]. exists sg. split; [reflexivity|]. split; [|reflexivity].
      apply Sma_length in Es. congruence.
    - right. destruct (Ema_of N (lrSmooth p) bc) as (sg & Es & Q). exists sg. split; [exact Es|]. split; [|exact Q]. destruct Q as [Q _]. congruence. }
  destruct S0 as [->|(sg & -> & Ls & Hs)]; cbn [bind]; [discriminate|].
  unfold len. rewrite tab_length.
  rewrite (@make_rows_T N _ _ kl _ _ _ _ (fun i => mkLrcV (nth i bo fzero) (nth i bc fzero) (nth i bh fzero) (nth i bl fzero) (nth i sg fzero)) eq_refl eq_refl).
  - intros Er. injection Er as <-. rewrite !column_T. cbn [lcOpen lcClose lcHigh lcLow lcSignal].
    rewrite <- E1 at 1. rewrite <- tab_of_list. rewrite <- E2 at 1. rewrite <- tab_of_list. rewrite <- E3 at 1. rewrite <- tab_of_list.
    rewrite <- E4. rewrite <- tab_of_list. rewrite E4, <- Ls, <- tab_of_list. repeat split; exact Hs.
  - intros i Hi. now apply time_in_T.
  - intros i Hi. rewrite (@get_nat _ bo i fzero), (@get_nat _ bc i fzero), (@get_nat _ bh i fzero), (@get_nat _ bl i fzero), (@get_nat _ sg i fzero) by lia. reflexivity.
Qed.
Print Assumptions C81_candles.
(** In exact arithmetic each line is 0 until the window is full and then the end point of the least-squares line through the last
    [lrLength] prices, numbered 0, 1, ... within the window. *)
Theorem C81_exact (p : nat) (s : Z) (kl : list (Candle (N := XR))) (os hs ls cs : list R) :
  (2 <= p)%nat -> (p <= length kl)%nat ->
  opens kl = fins os -> highs kl = fins hs -> lows kl = fins ls -> closes kl = fins cs ->
  exists rows : list (row (LrcV (N := XR))), rows_of I_LRC (mkLrcP s (Z.of_nat p) false) kl = Ok rows /\ length rows = length kl /\
    forall i r, nth_error rows i = Some r ->
      let end_point (xs : list R) (v : @F XR) := if (S i <? p)%nat then v = Fin 0 else
        exists b m, least_squares b m (points (window xs i p)) /\ v = Fin (b + m * (INR p - 1)) in
      end_point os (lcOpen (rVal r)) /\ end_point hs (lcHigh (rVal r)) /\ end_point ls (lcLow (rVal r)) /\ end_point cs (lcClose (rVal r)).
Proof.
  intros Hp Hk Ho Hh Hl Hc.
  assert (L : forall (f : Candle (N := XR) -> @F XR) xs, map f kl = fins xs -> length kl = length xs)
    by (intros f xs Q; rewrite <- (fins_length xs), <- Q; now rewrite map_length).
  assert (X : forall xs, length kl = length xs -> exists v : list (@F XR), LinearReg (N := XR) (fins xs) (Z.of_nat p) = Ok v /\ length v = length kl /\
    forall i, (i < length kl)%nat -> if (S i <? p)%nat then nth i v (@fzero XR) = Fin 0 else
        exists b m, least_squares b m (points (window xs i p)) /\ nth i v (@fzero XR) = Fin (b + m * (INR p - 1))).
  { intros xs Lx. destruct (@lr_tables p xs Hp ltac:(lia)) as (b & m & LS & _ & _ & E & _). eexists. split; [exact E|].
    rewrite tab_length. split; [lia|]. intros i Hi. rewrite tab_nth by lia.
    destruct (Nat.ltb_spec (S i) p) as [H|H]; [reflexivity|]. exists (b i), (m i). split; [apply LS; lia|reflexivity]. }
  destruct (X os (L _ _ Ho)) as (vo & Eo & Lo & Vo). destruct (X hs (L _ _ Hh)) as (vh & Eh & Lh & Vh).
  destruct (X ls (L _ _ Hl)) as (vl & El & Ll & Vl). destruct (X cs (L _ _ Hc)) as (vc & Ec & Lc & Vc).
  assert (Er : exists rows, rows_of (N := XR) I_LRC (mkLrcP s (Z.of_nat p) false) kl = Ok rows /\ length rows = length kl).
  { unfold rows_of, GetData, I_LRC. cbn [len length Z.of_nat Z.eqb Calculation Val Param]. unfold lrc_calc. cbn [lrLength lrSMA lrSmooth]. rewrite OHLC_T.
    cbn [bind oOpen oHigh oLow oClose oTime OH]. 
    pose proof Ho as Ho'. pose proof Hh as Hh'. pose proof Hl as Hl'. pose proof Hc as Hc'. rewrite cmap in Ho', Hh', Hl', Hc'.
    rewrite Ho', Hh', Hl', Hc', Eo, Eh, El, Ec. cbn [bind]. destruct (@Ema_of XR s vc) as (sg & Es & Q). rewrite Es. cbn [bind]. destruct Q as [Ls _].
    unfold len. rewrite fins_length, <- (L _ _ Hc).
    rewrite (@make_rows_T XR _ _ kl _ _ _ _ (fun i => mkLrcV (nth i vo fzero) (nth i vc fzero) (nth i vh fzero) (nth i vl fzero) (nth i sg fzero)) eq_refl eq_refl).
    - eexists. split; [reflexivity|]. apply tab_length.
    - intros i Hi. now apply time_in_T.
    - intros i Hi. rewrite (@get_nat _ vo i fzero), (@get_nat _ vc i fzero), (@get_nat _ vh i fzero), (@get_nat _ vl i fzero), (@get_nat _ sg i fzero)
        by (try (rewrite Ls); (rewrite Lo || rewrite Lh || rewrite Ll || rewrite Lc); exact Hi). reflexivity. }
  destruct Er as (rows & Er & Lr). exists rows. split; [exact Er|]. split; [exact Lr|].
  destruct (@C81_candles XR _ kl rows Er) as (E1 & E2 & E3 & E4 & _). cbn [lrLength] in E1, E2, E3, E4.
  rewrite Ho, Eo in E1. rewrite Hh, Eh in E2. rewrite Hl, El in E3. rewrite Hc, Ec in E4.
  injection E1 as E1. injection E2 as E2. injection E3 as E3. injection E4 as E4.
  intros i r Hi ep. assert (Hi' : (i < length kl)%nat) by (rewrite <- Lr; apply nth_error_Some; intros Q; enough (Some r = None) by discriminate; exact (eq_trans (eq_sym Hi) Q)).
  assert (G : forall (f : LrcV (N := XR) -> @F XR) (v : list (@F XR)), v = column f rows -> f (rVal r) = nth i v (@fzero XR)).
  { intros f v ->. symmetry. apply nth_error_nth. exact (map_nth_error (fun r => f (rVal r)) i rows Hi). }
  unfold ep. rewrite (G _ _ E1), (G _ _ E2), (G _ _ E3), (G _ _ E4). exact (conj (Vo i Hi') (conj (Vh i Hi') (conj (Vl i Hi') (Vc i Hi')))).
Qed.
Print Assumptions C81_exact.
(** The length must lie between 1 and the number of candles, and a simple average needs a non-negative smoothing. *)
Lemma lr_total (N : Num) out (xs : list F) p : 1 <= p <= len xs -> exists r, lr_loop out xs p = Ok r /\ length r = length xs.
Proof.
  intros Hp. unfold lr_loop. rewrite make_len. cbn [bind]. unfold lr_init. destruct (Z.ltb_spec p 0); [lia|].
  destruct (@for_inv (F * F) (fun _ _ => True) 0 p (fun k '(sy, sxy) => v <- get xs k ;; Ok (sy +~ v, sxy +~ ofZ (p - 1 - k) *~ v)) (fzero, fzero)) as ([sy sxy] & E & _).
  - lia.
  - exact I.
  - intros i [a b] Hi _. destruct (@get_in_range _ xs i) as [v Ev]; [lia|]. rewrite Ev. cbn [bind]. eauto.
  - rewrite E. cbn [bind].
    match goal with |- exists r, bind (for_ ?lo ?hi ?body ?s) _ = _ /\ _ => destruct (@for_inv _ (fun _ st => length (snd st) = length xs) lo hi body s) as ([[a b] r] & E' & Q) end.
    + lia.
    + apply repeat_length.
    + intros i [[a b] r] Hi Q. cbn [snd] in Q.
      assert (X : exists v : F * F, (if i >? p - 1 then t2 <- get xs (i - p) ;; v <- get xs i ;; Ok (a +~ (v -~ t2), b +~ (a -~ ofZ p *~ t2)) else Ok (a, b)) = Ok v).
      { rewrite Z.gtb_ltb. destruct (Z.ltb_spec (p - 1) i); [|eauto].
        destruct (@get_in_range _ xs (i - p)) as [t Et]; [lia|]. destruct (@get_in_range _ xs i) as [v Ev]; [lia|]. rewrite Et, Ev. cbn [bind]. eauto. }
      destruct X as [[a' b'] ->]. cbn [bind]. rewrite set_ok by (unfold len in *; lia). cbn [bind].
      eexists. split; [reflexivity|]. cbn [snd]. rewrite upd_length. exact Q.
    + rewrite E'. cbn [bind]. exists r. split; [reflexivity|exact Q].
Qed.
Theorem C81_panics_iff (N : Num) (p : LrcP) (kl : list Candle) : rows_of I_LRC p kl = Panic <->
  lrLength p <= 0 \/ len kl < lrLength p \/ lrSMA p = true /\ lrSmooth p < 0.
Proof.
  unfold rows_of, GetData, I_LRC. cbn [len length Z.of_nat Z.eqb Calculation Val Param]. unfold lrc_calc. rewrite OHLC_T.
  cbn [bind oOpen oHigh oLow oClose oTime OH].
  assert (D : (lrLength p <= 0 \/ len kl < lrLength p) \/ 1 <= lrLength p <= len kl) by lia. destruct D as [D|D].
  { unfold LinearReg at 1. rewrite lr_panic; [cbn [bind]; tauto|]. rewrite len_tab. exact D. }
  assert (X : forall f, exists r, LinearReg (tab (length kl) f) (lrLength p) = Ok r /\ length r = length kl).
  { intros f. destruct (@lr_total N (fun m sy => (sy -~ m *~ lr_sumX (lrLength p)) /~ ofZ (lrLength p) +~ m *~ (ofZ (lrLength p) -~ ofZ 1))
      (tab (length kl) f) (lrLength p)) as (r & E & Lr); [rewrite len_tab; exact D|]. exists r. rewrite tab_length in Lr. split; assumption. }
  destruct (X (fun i => cOpen (cn kl i))) as (bo & -> & Lo). destruct (X (fun i => cHigh (cn kl i))) as (bh & -> & Lh).
  destruct (X (fun i => cLow (cn kl i))) as (bl & -> & Ll). destruct (X (fun i => cClose (cn kl i))) as (bc & -> & Lc). cbn [bind].
  assert (Fin : forall sg, length sg = length kl -> make_rows (mkLrcV fzero fzero fzero fzero fzero) (len (tab (length kl) (fun i => cClose (cn kl i))))
    (time_in (tab (length kl) (fun i => cTime (cn kl i)))) 0 (len (tab (length kl) (fun i => cClose (cn kl i)))) (fun i =>
      a <- get bo i ;; b <- get bc i ;; c <- get bh i ;; d <- get bl i ;; e <- get sg i ;; Ok (mkLrcV a b c d e)) <> Panic).
  { intros sg Ls. unfold len. rewrite tab_length.
    rewrite (@make_rows_T N _ _ kl _ _ _ _ (fun i => mkLrcV (nth i bo fzero) (nth i bc fzero) (nth i bh fzero) (nth i bl fzero) (nth i sg fzero)) eq_refl eq_refl).
    - discriminate.
    - intros i Hi. now apply time_in_T.
    - intros i Hi. rewrite (@get_nat _ bo i fzero), (@get_nat _ bc i fzero), (@get_nat _ bh i fzero), (@get_nat _ bl i fzero), (@get_nat _ sg i fzero) by lia. reflexivity. }
  assert (Hb : bc <> []) by (intros ->; unfold len in D; cbn in Lc; lia).
  destruct (lrSMA p).
  - destruct (Z_lt_le_dec (lrSmooth p) 0) as [Hs|Hs]; [rewrite Sma_neg by assumption; cbn [bind]; tauto|].
    destruct (Sma (lrSmooth p) bc) as [sg|] eqn:Es.
    + cbn [bind]. split; [|lia]. intros Q. apply Sma_length in Es. apply Fin in Q; [easy|congruence].
    + exfalso. rewrite (tab_of_list bc fzero), Sma_T in Es by exact Hs. discriminate.
  - destruct (@Ema_of N (lrSmooth p) bc) as (sg & -> & Q). destruct Q as [Q _]. cbn [bind]. split; [|intros [?|[?|[? _]]]; [lia|lia|discriminate]].
    intros Q'. apply Fin in Q'; [easy|congruence].
Qed.
Print Assumptions C81_panics_iff.
Example C81_hyp : rmap (map (fun r => (lcClose (rVal r) ==~ fz 5, lcHigh (rVal r) ==~ fz 8, lcSignal (rVal r) ==~ fz 6)))
  (rows_of (N := EX) I_LRC (mkLrcP 2 3 true) [kd 1 2 1 1 1 60; kd 3 5 1 3 1 120; kd 5 8 1 5 1 180; kd 7 9 1 7 1 240]) =
  Ok [(false, false, false); (false, false, false); (true, true, false); (false, false, true)].
Proof. vm_compute. reflexivity. Qed.
