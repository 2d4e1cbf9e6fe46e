(** * PropSmc: properties C51, C66-C70 of SmartMoneyConcepts. *)
From Coq Require Import ZArith Lia Bool List.
From Verif Require Import Base Num B64 Lits Order SpecNum Ta Sides Klines IndBase TaTools TaElem TaRange SpecTa KlineProofs3
  PropInd1 Smc SpecSmc SmcProofs SmcBar.
Import ListNotations.
Set Implicit Arguments.
Open Scope Z_scope.

(** ** C51: order block list bookkeeping *)

(** a history of list operations on an initially empty list *)
Inductive list_op {N : Num} : Type := OpAdd (b : Block) | OpRemove (b : Block).
Definition apply_op {N : Num} (l : list Block) (o : list_op) : list Block :=
  match o with OpAdd b => bkAdd l b | OpRemove b => bkRemove l b end.

(** whatever is added and removed, no two blocks ever share side and time *)
Theorem C51_histories (N : Num) (ops : list list_op) :
  NoDup (map block_key (fold_left apply_op ops [])).
Proof.
  assert (H : forall l, uniq l -> uniq (fold_left apply_op ops l)).
  { induction ops as [|o ops IH]; intros l Hl; [exact Hl|]. cbn [fold_left]. apply IH. destruct o; cbn [apply_op].
    - now apply uniq_add.
    - now apply uniq_remove. }
  apply H. constructor.
Qed.
Print Assumptions C51_histories.

(** Add puts a new block first and ignores one that is there already *)
Theorem C51_Add (N : Num) (l : list Block) (b : Block) :
  (~ In (block_key b) (map block_key l) -> bkAdd l b = b :: l) /\
  (In (block_key b) (map block_key l) -> bkAdd l b = l).
Proof.
  unfold bkAdd. pose proof (@bkContains_iff N l b) as H. destruct (bkContains l b); cbn [negb]; split; intros H'.
  - destruct H'. now apply H.
  - reflexivity.
  - reflexivity.
  - apply H in H'. discriminate.
Qed.
Print Assumptions C51_Add.

(** Remove of a block that is in the list deletes that block and nothing else *)
Theorem C51_Remove (N : Num) (l1 l2 : list Block) (b k : Block) :
  NoDup (map block_key (l1 ++ b :: l2)) -> block_key b = block_key k ->
  bkRemove (l1 ++ b :: l2) k = l1 ++ l2.
Proof.
  intros H E. apply bkRemove_at; [exact E|]. rewrite <- E. now apply (@uniq_mid N l1 b l2).
Qed.
Print Assumptions C51_Remove.

(** but Remove of a block that is not in the list empties the list *)
Theorem C51_Remove_absent_refuted :
  ~ (forall (l : list (Block (N := EX))) (k : Block), ~ In (block_key k) (map block_key l) -> bkRemove l k = l).
Proof.
  intros H.
  specialize (H [mkBlock true 5 (ofZ 1) (ofZ 2) (ofZ 1) (ofZ 1)] (mkBlock true 6 (ofZ 1) (ofZ 2) (ofZ 1) (ofZ 1))).
  cbn in H. assert (E : [] = [mkBlock (N := EX) true 5 (ofZ 1) (ofZ 2) (ofZ 1) (ofZ 1)]); [|discriminate].
  apply H. intros [E|[]]. discriminate.
Qed.
Print Assumptions C51_Remove_absent_refuted.
(** exactly: it always does *)
Theorem C51_Remove_absent_empties (N : Num) (l : list Block) (k : Block) :
  ~ In (block_key k) (map block_key l) -> bkRemove l k = [].
Proof. apply bkRemove_absent. Qed.
Print Assumptions C51_Remove_absent_empties.

Example C51_hyp :
  let b t := mkBlock (N := EX) true t (ofZ 1) (ofZ 2) (ofZ 1) (ofZ 1) in
  map bkTime (fold_left apply_op [OpAdd (b 5); OpAdd (b 6); OpAdd (b 5); OpAdd (b 7); OpRemove (b 6)] []) = [7; 5].
Proof. vm_compute. reflexivity. Qed.

(** ** Calculation *)
Section Calc.
Variable m : Model.
Local Notation C := (Candle (N := num m)).

Definition ohlc (kl : list C) : OHLC :=
  mkOHLC (map (fun c => cOpen c) kl) (map (fun c => cHigh c) kl) (map (fun c => cLow c) kl) (map (fun c => cClose c) kl)
         (map (fun c => cVolume c) kl) (map cBull kl) (map cTime kl).
Lemma ohlc_is kl : GetOHLC kl = Ok (ohlc kl).
Proof. apply GetOHLC_spec. Qed.
Lemma ohlc_shaped kl : shaped (ohlc kl) (length kl).
Proof. repeat split; apply map_length. Qed.

(** the average true range the indicator uses, candle by candle *)
Definition atr200 (kl : list C) : list F :=
  tab (length kl) (atr_out 200 (tab (length kl) (tr_at (map (fun c => cHigh c) kl) (map (fun c => cLow c) kl) (map (fun c => cClose c) kl)))).
Lemma atr200_is kl : (200 < length kl)%nat ->
  Atr (map (fun c => cHigh c) kl) (map (fun c => cLow c) kl) (map (fun c => cClose c) kl) 200 = Ok (atr200 kl).
Proof.
  intros H. change 200 with (Z.of_nat 200). rewrite Atr_gen; rewrite ?map_length; try lia. unfold atr200. reflexivity.
Qed.
Lemma calc_inv (p : SmcP) (sw : nat) kl : (200 < length kl)%nat -> SwingLenght p = Z.of_nat sw ->
  (EqEnable p = true -> 0 <= BarsConfirmation p) ->
  exists v e, smc_Calculation p (ohlc kl) smc_new = Ok e /\ inv p (ohlc kl) (atr200 kl) (length kl) sw (length kl) v e.
Proof.
  intros Hn Hs Hb. unfold smc_Calculation. cbn [oHigh oLow oClose ohlc]. rewrite atr200_is by exact Hn. cbn [bind].
  rewrite make_len. cbn [bind smc_new sBullish sBearish sOs1 sOs2 sIdxBullish sIdxBearish sStrongHigh sWeakHigh sStrongLow sWeakLow].
  destruct (@smc_loop_ok (num m) (ord_laws m) p (ohlc kl) (atr200 kl) (length kl) sw (ohlc_shaped kl)) as (v & e & E & I);
    try assumption; try lia; [apply tab_length|].
  cbn [oClose ohlc] in E. rewrite map_length. rewrite E. cbn [bind]. exists v, e. split; [reflexivity|exact I].
Qed.
End Calc.

(** ** C66: when Calculation panics *)
Theorem C66_total (m : Model) (p : SmcP) (kl : list (Candle (N := num m))) :
  (200 < length kl)%nat -> 0 <= SwingLenght p -> (EqEnable p = true -> 0 <= BarsConfirmation p) ->
  exists oh e, GetOHLC kl = Ok oh /\ smc_Calculation p oh smc_new = Ok e.
Proof.
  intros Hn Hs Hb. destruct (@calc_inv m p (Z.to_nat (SwingLenght p)) kl Hn ltac:(lia) Hb) as (v & e & E & _).
  exists (ohlc m kl), e. split; [apply ohlc_is|exact E].
Qed.
Print Assumptions C66_total.

Theorem C66_short_panics (m : Model) (p : SmcP) (kl : list (Candle (N := num m))) (e : Smc) oh :
  (length kl <= 200)%nat -> GetOHLC kl = Ok oh -> smc_Calculation p oh e = Panic.
Proof.
  intros Hn E. rewrite ohlc_is in E. injection E as <-. unfold smc_Calculation. cbn [oHigh oLow oClose ohlc].
  rewrite Atr_short; [reflexivity|lia|]. unfold len. rewrite map_length. lia.
Qed.
Print Assumptions C66_short_panics.

Theorem C66_negative_swing_panics (m : Model) (p : SmcP) (kl : list (Candle (N := num m))) (e : Smc) oh :
  SwingLenght p < 0 -> GetOHLC kl = Ok oh -> smc_Calculation p oh e = Panic.
Proof.
  intros Hs E. destruct (Nat.le_gt_cases (length kl) 200) as [Hn|Hn]; [eapply C66_short_panics; eassumption|].
  rewrite ohlc_is in E. injection E as <-. unfold smc_Calculation. cbn [oHigh oLow oClose ohlc].
  rewrite atr200_is by lia. cbn [bind]. rewrite make_len. cbn [bind].
  rewrite for_first_panic; [reflexivity|unfold len; rewrite map_length; lia|].
  unfold smc_step. cbn [oHigh oLow oClose oTime ohlc].
  destruct (get _ 1); [|reflexivity]. cbn [bind]. destruct (get _ 1); [|reflexivity]. cbn [bind].
  destruct (get _ 1); [|reflexivity]. cbn [bind]. destruct (get _ 1); [|reflexivity]. cbn [bind].
  destruct (Z.ltb_spec 1 (SwingLenght p)); [lia|]. unfold smc_bar.
  repeat (match goal with |- bind ?a _ = Panic => destruct a as [?|] eqn:?; [|reflexivity] end; cbn [bind];
          try (rewrite fle_swings_neg by exact Hs; reflexivity)).
Qed.
Print Assumptions C66_negative_swing_panics.

(** the examples' candles: zigzags with a rising base and a fall at the end *)
Definition zig (i : Z) : Z := 100 + Z.abs (i mod 20 - 10) * 4 + i / 8 - (if i >? 215 then (i - 215) * 6 else 0).
Definition zigs (n : nat) : list (Candle (N := EX)) :=
  map (fun k => let i := Z.of_nat k in kd (zig i) (zig i + 1 + i mod 3) (zig i - 1) (zig i) 1 (60 * i)) (seq 0 n).
Definition smc_on (p : SmcP) (n : nat) : res Smc := oh <- GetOHLC (zigs n) ;; smc_Calculation p oh smc_new.
Lemma smc_on_ex p n A (f : Smc -> A) a : rmap f (smc_on p n) = Ok a ->
  exists oh e, GetOHLC (zigs n) = Ok oh /\ smc_Calculation p oh smc_new = Ok e /\ f e = a.
Proof.
  unfold smc_on. destruct (GetOHLC (zigs n)) as [oh|]; [|discriminate]. cbn [bind].
  destruct (smc_Calculation p oh smc_new) as [e|] eqn:E1; [|discriminate]. cbn [rmap bind]. intros E. injection E as E.
  exists oh, e. repeat split; try reflexivity; assumption.
Qed.
Definition smc_twice (p : SmcP) (n : nat) : res (Smc * Smc) :=
  oh <- GetOHLC (zigs n) ;; e <- smc_Calculation p oh smc_new ;; e' <- smc_Calculation p oh (smc_Clear e) ;; Ok (e, e').
Lemma smc_twice_ex p n A (f : Smc -> A) a a' : rmap (fun s => (f (fst s), f (snd s))) (smc_twice p n) = Ok (a, a') ->
  exists oh e e', GetOHLC (zigs n) = Ok oh /\ smc_Calculation p oh smc_new = Ok e /\ smc_Calculation p oh (smc_Clear e) = Ok e' /\ f e = a /\ f e' = a'.
Proof.
  unfold smc_twice. destruct (GetOHLC (zigs n)) as [oh|]; [|discriminate]. cbn [bind].
  destruct (smc_Calculation p oh smc_new) as [e|] eqn:E1; [|discriminate]. cbn [bind].
  destruct (smc_Calculation p oh (smc_Clear e)) as [e'|] eqn:E2; [|discriminate]. cbn [rmap bind fst snd]. intros E. injection E as E E'.
  exists oh, e, e'. repeat split; try reflexivity; assumption.
Qed.
Example C66_hyp :
  rmap (fun e => len (sData e)) (smc_on (smc_params 8 3 1) 230) = Ok 230 /\
  rmap (fun e => len (sData e)) (smc_on (smc_params 8 3 1) 200) = Panic.
Proof. split; vm_compute; reflexivity. Qed.

(** ** C67: the order blocks after Calculation *)
Theorem C67_order_blocks (m : Model) (p : SmcP) (kl : list (Candle (N := num m))) oh e :
  (200 < length kl)%nat -> 0 <= SwingLenght p -> (EqEnable p = true -> 0 <= BarsConfirmation p) ->
  GetOHLC kl = Ok oh -> smc_Calculation p oh smc_new = Ok e ->
  forall l, l = sBullish e \/ l = sBearish e ->
    NoDup (map block_key l) /\
    Forall (fun b => exists k, (k < length kl)%nat /\ block_of oh k b) l /\
    (length l <= Z.to_nat (OrderBlockNumber p + 1))%nat /\
    Forall (fun b => ~ broken_by (nth (length kl - 1) (oClose oh) fzero) b) l.
Proof.
  intros Hn Hs Hb Eo Ec l Hl. destruct (@calc_inv m p (Z.to_nat (SwingLenght p)) kl Hn ltac:(lia) Hb) as (v & e' & E & I).
  rewrite ohlc_is in Eo. injection Eo as <-. rewrite E in Ec. injection Ec as ->.
  destruct (iv_bull I) as [B1 B2], (iv_bear I) as [B3 B4], (iv_cbull I) as [B5 B6], (iv_cbear I) as [B7 B8].
  destruct Hl as [-> | ->]; (split; [assumption|]; split; [assumption|]; split; [lia|assumption]).
Qed.
Print Assumptions C67_order_blocks.

(** one block more than OrderBlockNumber can survive *)
Theorem C67_bound_is_reached :
  ~ (forall (p : SmcP) (kl : list (Candle (N := EX))) oh e, GetOHLC kl = Ok oh -> smc_Calculation p oh smc_new = Ok e ->
       len (sBearish e) <= OrderBlockNumber p).
Proof.
  intros H. destruct (@smc_on_ex (mkSmcP 8 3 1 false 0) 230 _ (fun e => len (sBearish e)) 1) as (oh & e & Eo & Ee & E).
  { vm_compute. reflexivity. }
  specialize (H _ _ _ _ Eo Ee). rewrite E in H. cbn [OrderBlockNumber] in H. lia.
Qed.
Print Assumptions C67_bound_is_reached.
Example C67_hyp :
  rmap (fun e => (map (fun b => (bkTop b, bkTime b / second)) (sBullish e), map (fun b => (bkTop b, bkTime b / second)) (sBearish e)))
    (smc_on (smc_params 8 3 1) 230) = Ok ([], [(true, 12900)]).
Proof. vm_compute. reflexivity. Qed.

(** ** C68: rows and levels *)
Theorem C68_rows (m : Model) (p : SmcP) (kl : list (Candle (N := num m))) oh e :
  (200 < length kl)%nat -> 0 <= SwingLenght p -> (EqEnable p = true -> 0 <= BarsConfirmation p) ->
  GetOHLC kl = Ok oh -> smc_Calculation p oh smc_new = Ok e ->
  length (sData e) = length kl /\
  forall j r, nth_error (sData e) j = Some r ->
    rTime r = if 1 <=? Z.of_nat j then if SwingLenght p <=? Z.of_nat j then unix (nth j (oTime oh) 0) else zero_time else zero_time.
Proof.
  intros Hn Hs Hb Eo Ec. destruct (@calc_inv m p (Z.to_nat (SwingLenght p)) kl Hn ltac:(lia) Hb) as (v & e' & E & I).
  rewrite ohlc_is in Eo. injection Eo as <-. rewrite E in Ec. injection Ec as ->.
  destruct (iv_rows I) as [R1 R2]. split; [exact R1|]. intros j r Hj. destruct (R2 _ _ Hj) as [_ ->].
  assert (j < length (sData e))%nat by (apply nth_error_Some; congruence).
  destruct (Nat.leb_spec 1 j), (Nat.leb_spec (Z.to_nat (SwingLenght p)) j), (Nat.ltb_spec j (length kl)),
    (Z.leb_spec 1 (Z.of_nat j)), (Z.leb_spec (SwingLenght p) (Z.of_nat j)); try lia; reflexivity.
Qed.
Print Assumptions C68_rows.

(** every BOS/CHoCH level of a row is a swing point of its side, broken by a close,
    with the row between the swing point and the breaking candle *)
Theorem C68_levels (m : Model) (p : SmcP) (kl : list (Candle (N := num m))) oh e :
  (200 < length kl)%nat -> 0 <= SwingLenght p -> (EqEnable p = true -> 0 <= BarsConfirmation p) ->
  (forall c, In c kl -> (cClose c <~ fzero) = false) ->
  GetOHLC kl = Ok oh -> smc_Calculation p oh smc_new = Ok e ->
  let long := Z.to_nat (SwingLenght p) in
  forall j r, nth_error (sData e) j = Some r -> let v := rVal r in
    (forall y, y = HighBOSShort v \/ y = HighCHoCHShort v -> y = fzero \/ broken_high (oHigh oh) (oClose oh) 5 j y) /\
    (forall y, y = HighBOSLong v \/ y = HighCHoCHLong v -> y = fzero \/ broken_high (oHigh oh) (oClose oh) long j y) /\
    (forall y, y = LowBOSShort v \/ y = LowChoCHShort v -> y = fzero \/ broken_low (oLow oh) (oClose oh) 5 j y) /\
    (forall y, y = LowBOSLong v \/ y = LowChoCHLong v -> y = fzero \/ broken_low (oLow oh) (oClose oh) long j y).
Proof.
  intros Hn Hs Hb Hc Eo Ec. destruct (@calc_inv m p (Z.to_nat (SwingLenght p)) kl Hn ltac:(lia) Hb) as (v & e' & E & I).
  rewrite ohlc_is in Eo. injection Eo as <-. rewrite E in Ec. injection Ec as ->.
  destruct (iv_rows I) as [R1 R2]. intros long j r Hj. destruct (R2 _ _ Hj) as [Hv _].
  assert (K : closes_ok (ohlc m kl)).
  { unfold closes_ok. cbn [oClose ohlc]. apply Forall_forall. intros x Hx. apply in_map_iff in Hx as (c & <- & Hx). now apply Hc. }
  cbv zeta. split; [|split; [|split]]; intros y [-> | ->].
  - destruct (Hv fHighBOSShort) as [H|H]; [now left|right; exact (H K)].
  - destruct (Hv fHighCHoCHShort) as [H|H]; [now left|right; exact (H K)].
  - destruct (Hv fHighBOSLong) as [H|H]; [now left|right; exact (H K)].
  - destruct (Hv fHighCHoCHLong) as [H|H]; [now left|right; exact (H K)].
  - destruct (Hv fLowBOSShort) as [H|H]; [now left|right; exact (H K)].
  - destruct (Hv fLowChoCHShort) as [H|H]; [now left|right; exact (H K)].
  - destruct (Hv fLowBOSLong) as [H|H]; [now left|right; exact (H K)].
  - destruct (Hv fLowChoCHLong) as [H|H]; [now left|right; exact (H K)].
Qed.
Print Assumptions C68_levels.

(** every EQH (EQL) level joins two pivot highs (lows) of nearly the same height *)
Theorem C68_equal_levels (m : Model) (p : SmcP) (kl : list (Candle (N := num m))) oh e :
  (200 < length kl)%nat -> 0 <= SwingLenght p -> (EqEnable p = true -> 0 <= BarsConfirmation p) ->
  (forall c, In c kl -> isNaN (cHigh c) = false /\ isNaN (cLow c) = false) ->
  GetOHLC kl = Ok oh -> smc_Calculation p oh smc_new = Ok e ->
  exists atr, Atr (oHigh oh) (oLow oh) (oClose oh) 200 = Ok atr /\
  let bars := Z.to_nat (BarsConfirmation p) in
  forall j r, nth_error (sData e) j = Some r ->
    (EQH (rVal r) = fzero \/ equal_highs (oHigh oh) atr bars (Threshold p) j (EQH (rVal r))) /\
    (EQL (rVal r) = fzero \/ equal_lows (oLow oh) atr bars (Threshold p) j (EQL (rVal r))).
Proof.
  intros Hn Hs Hb Hc Eo Ec. destruct (@calc_inv m p (Z.to_nat (SwingLenght p)) kl Hn ltac:(lia) Hb) as (v & e' & E & I).
  rewrite ohlc_is in Eo. injection Eo as <-. rewrite E in Ec. injection Ec as ->.
  destruct (iv_rows I) as [R1 R2]. exists (atr200 m kl). split; [now apply atr200_is|]. intros bars j r Hj. destruct (R2 _ _ Hj) as [Hv _].
  assert (K1 : no_nan (oHigh (ohlc m kl))).
  { cbn [oHigh ohlc]. apply Forall_forall. intros x Hx. apply in_map_iff in Hx as (c & <- & Hx). now apply Hc. }
  assert (K2 : no_nan (oLow (ohlc m kl))).
  { cbn [oLow ohlc]. apply Forall_forall. intros x Hx. apply in_map_iff in Hx as (c & <- & Hx). now apply Hc. }
  split.
  - destruct (Hv fEQH) as [H|H]; [now left|right; exact (H K1)].
  - destruct (Hv fEQL) as [H|H]; [now left|right; exact (H K2)].
Qed.
Print Assumptions C68_equal_levels.

Example C68_hyp :
  rmap (fun e => map (fun j => match nth_error (sData e) j with
      | Some r => [ftrunc (HighBOSLong (rVal r)); ftrunc (LowBOSLong (rVal r)); rTime r / second] | None => [] end) [189; 190; 200; 210; 222; 223]%nat)
    (smc_on (smc_params 8 3 1) 230) =
  Ok [[163; 0; 11340]; [163; 0; 11400]; [163; 0; 12000]; [0; 125; 12600]; [0; 125; 13320]; [0; 0; 13380]].
Proof. vm_compute. reflexivity. Qed.

(** ** C69: a cleared object calculates afresh *)
Theorem C69_recalculation_refuted :
  ~ (forall (p : SmcP) (kl : list (Candle (N := EX))) oh e, GetOHLC kl = Ok oh -> smc_Calculation p oh smc_new = Ok e ->
       rmap (fun e' => sData e') (smc_Calculation p oh (smc_Clear e)) = Ok (sData e)).
Proof.
  intros H.
  destruct (@smc_twice_ex (smc_params 5 3 1) 204 _ (fun e => map (fun r => ftrunc (HighBOSLong (rVal r))) (firstn 1 (sData e))) [0] [141])
    as (oh & e & e' & Eo & Ee & Ee' & E1 & E2).
  { vm_compute. reflexivity. }
  specialize (H _ _ _ _ Eo Ee). rewrite Ee' in H. cbn [rmap] in H. injection H as H. rewrite H, E1 in E2. discriminate.
Qed.
Print Assumptions C69_recalculation_refuted.

(** without Clear, GetData after Calculation returns the calculated rows and changes nothing *)
Theorem C69_GetData_cached (m : Model) (p : SmcP) (kl : list (Candle (N := num m))) oh e :
  (200 < length kl)%nat -> 0 <= SwingLenght p -> (EqEnable p = true -> 0 <= BarsConfirmation p) ->
  GetOHLC kl = Ok oh -> smc_Calculation p oh smc_new = Ok e -> smc_GetData p oh e = Ok (e, sData e).
Proof.
  intros Hn Hs Hb Eo Ec. destruct (@C68_rows m p kl oh e Hn Hs Hb Eo Ec) as [H _]. unfold smc_GetData, len.
  destruct (Z.eqb_spec (Z.of_nat (length (sData e))) 0); [lia|]. reflexivity.
Qed.
Print Assumptions C69_GetData_cached.

(** ** C70: a break against the trend is a CHoCH, a break with it a BOS *)

(** So if a long swing high is broken and a long swing low after it, some long
    CHoCH low (the first low break after the high break) must be drawn. *)
Theorem C70_long_low_refuted :
  ~ (forall (p : SmcP) (kl : list (Candle (N := EX))) oh e, GetOHLC kl = Ok oh -> smc_Calculation p oh smc_new = Ok e ->
       let at_ f j := match nth_error (sData e) j with Some r => negb (f (rVal r) ==~ fzero) | None => false end in
       forall i j, (i < j)%nat -> at_ (fun v => HighBOSLong v) i = true -> at_ (fun v => LowBOSLong v) j = true ->
       exists k, at_ (fun v => LowChoCHLong v) k = true).
Proof.
  intros H.
  destruct (@smc_on_ex (smc_params 8 3 1) 230 _ (fun e =>
      (match nth_error (sData e) 195 with Some r => negb (HighBOSLong (rVal r) ==~ fzero) | None => false end,
       match nth_error (sData e) 220 with Some r => negb (LowBOSLong (rVal r) ==~ fzero) | None => false end,
       forallb (fun r => LowChoCHLong (rVal r) ==~ fzero) (sData e))) (true, true, true)) as (oh & e & Eo & Ee & E).
  { vm_compute. reflexivity. }
  injection E as E1 E2 E3. specialize (H _ _ _ _ Eo Ee). cbv beta zeta in H.
  destruct (H 195%nat 220%nat) as [k Hk]; [lia|exact E1|exact E2|].
  destruct (nth_error (sData e) k) as [r|] eqn:Er; [|discriminate].
  rewrite forallb_forall in E3. specialize (E3 r (nth_error_In _ _ Er)). apply negb_true_iff in Hk. exact (eq_true_false_abs _ E3 Hk).
Qed.
Print Assumptions C70_long_low_refuted.
