(** * PropInd11: properties C77 (vortex indicator) and C78 (average directional index). *)
From Coq Require Import Reals Lra ZArith Lia Bool List Sorted.
From Verif Require Import Base Num XReal Order OrderMore FloatLaws SpecNum B64 Lits Containers Ta TaTools TaAvg TaRange SpecTa Klines RSum XrMore SpecInd2
  IndBase IndTrend IndChannel IndOsc IndTools IndForms IndForms2 IndForms3 IndForms4 IndForms5 IndFormsSpec IndExact PropInd1 PropInd5 PropInd6.
Import ListNotations.
Set Implicit Arguments.
Open Scope Z_scope.
Local Notation highs := (map (fun c => cHigh c)).
Local Notation lows := (map (fun c => cLow c)).
Local Notation closes := (map (fun c => cClose c)).

(** ** C77 *)
(** Movements of the bars from the second on: high against the previous low, low against the previous high, and the
    true range. *)
Definition up_moves (hs ls : list R) : list R := pointwise (fun h l => Rabs (h - l)) (tl hs) ls.
Definition down_moves (hs ls : list R) : list R := pointwise (fun l h => Rabs (l - h)) (tl ls) hs.
Definition true_ranges (hs ls cs : list R) : list R :=
  pointwise (fun hl c => Rmax (fst hl - snd hl) (Rmax (Rabs (fst hl - c)) (Rabs (snd hl - c)))) (combine (tl hs) (tl ls)) cs.

Lemma tl_tab A n (f : nat -> A) : tl (tab (S n) f) = tab n (fun i => f (S i)).
Proof. unfold tab. cbn. rewrite <- seq_shift, map_map. reflexivity. Qed.
Lemma combine_tab A B n (f : nat -> A) (g : nat -> B) : combine (tab n f) (tab n g) = tab n (fun i => (f i, g i)).
Proof. pose proof (pointwise_T (fun a b => (a, b)) n f g) as E. unfold pointwise in E. rewrite <- E. symmetry. rewrite <- map_id. apply map_ext. now intros []. Qed.
Lemma combine_short A B n (f : nat -> A) (g : nat -> B) : combine (tab n f) (tab (S n) g) = tab n (fun i => (f i, g i)).
Proof.
  assert (T : tab (S n) g = tab n g ++ [g n]) by (unfold tab; rewrite seq_S, map_app; reflexivity).
  rewrite T. rewrite <- combine_tab. generalize (tab_length n f) (tab_length n g). generalize (tab n f) (tab n g). intros l l' E E'. rewrite <- E in E'. clear E.
  revert l' E'. induction l as [|x l IH]; intros [|y l'] E; try discriminate; [reflexivity|]. cbn. f_equal. apply IH. cbn in E. lia.
Qed.
Lemma pointwise_short A B X (h : A -> B -> X) n f g : pointwise h (tab n f) (tab (S n) g) = tab n (fun i => h (f i) (g i)).
Proof. unfold pointwise. rewrite combine_short. unfold tab. now rewrite map_map. Qed.

Lemma ringS_runF p (v : nat -> @F XR) (g : nat -> R) n i : (i < n)%nat -> (forall j, (j < n)%nat -> v j = Fin (g j)) ->
  ringS (N := XR) p v i = runF (N := XR) p (fun j => v (S j)) i /\ exists s, ringS (N := XR) p v i = Fin s.
Proof.
  intros Hi Hv. induction i as [|i IH]; [split; [reflexivity|exists 0%R; reflexivity]|]. destruct IH as (E & s & Es); [lia|]. cbn [ringS runF]. rewrite <- E, Es.
  unfold lagged0. rewrite (Hv (S i) Hi). destruct (Nat.leb_spec (S i) p), (Nat.leb_spec p i); try lia.
  - rewrite xr_zero, xr_sub, !xr_add. split; [f_equal; lra|eauto].
  - replace (S (i - p))%nat with (S i - p)%nat by lia. rewrite Hv by lia. rewrite xr_sub, !xr_add, xr_sub. split; [f_equal; lra|eauto].
Qed.
Lemma ringS_exact p (v : nat -> @F XR) (g : nat -> R) n i : (S i < S n)%nat -> (forall j, (j < S n)%nat -> v j = Fin (g j)) ->
  ringS (N := XR) p v (S i) = Fin (Rsum (window (tab n (fun j => g (S j))) i p)).
Proof.
  intros Hi Hv. destruct (@ringS_runF p v g (S n) (S i) Hi Hv) as [E _]. rewrite E. apply runF_exact; [lia|]. intros j Hj. apply Hv. lia.
Qed.
Lemma fins_cn (sel : Candle (N := XR) -> @F XR) kl xs : map sel kl = fins xs -> length xs = length kl /\ xs = tab (length kl) (fun i => nth i xs 0%R) /\
  forall i, (i < length kl)%nat -> sel (cn kl i) = Fin (nth i xs 0%R).
Proof.
  intros E. assert (L : length xs = length kl) by (apply (f_equal (@length _)) in E; now rewrite map_length, fins_length in E).
  split; [exact L|]. split; [rewrite <- L; symmetry; symmetry; apply tab_of_list|]. intros i Hi.
  assert (Q : nth_error (map sel kl) i = nth_error (fins xs) i) by now rewrite E. rewrite nth_error_map, (cn_in kl Hi) in Q. cbn in Q.
  unfold fins in Q. rewrite nth_error_map in Q. rewrite (nth_error_nth' xs 0%R) in Q by lia. cbn in Q. now injection Q.
Qed.
(** In exact arithmetic the two lines are, over the last p bars (fewer at the start), the sum of the movements divided by the
    sum of the true ranges; the first row is 0. *)
Theorem C77_exact (p : nat) (kl : list (Candle (N := XR))) (hs ls cs : list R) : (1 <= p)%nat ->
  highs kl = fins hs -> lows kl = fins ls -> closes kl = fins cs ->
  exists rows : list (row (VortexV (N := XR))), rows_of I_Vortex (Z.of_nat p) kl = Ok rows /\ length rows = length kl /\
    (forall r, nth_error rows 0 = Some r -> vPlus (rVal r) = Fin 0 /\ vMinus (rVal r) = Fin 0) /\
    forall i r, nth_error rows (S i) = Some r ->
      let total (xs : list R) : @F XR := Fin (Rsum (window xs i p)) in
      vPlus (rVal r) = total (up_moves hs ls) /~ total (true_ranges hs ls cs) /\
      vMinus (rVal r) = total (down_moves hs ls) /~ total (true_ranges hs ls cs).
Proof.
  intros Hp Eh El Ec. destruct (fins_cn (fun c => cHigh c) kl hs Eh) as (Lh & Th & Gh), (fins_cn (fun c => cLow c) kl ls El) as (Ll & Tl & Gl), (fins_cn (fun c => cClose c) kl cs Ec) as (Lc & Tc & Gc).
  rewrite (@Vortex_T XR) by lia. rewrite Nat2Z.id. eexists. split; [reflexivity|]. split; [apply tab_length|]. split.
  { intros r Hr. apply tab_some in Hr as [_ ->]. split; reflexivity. }
  intros i r Hr total. apply tab_some in Hr as [Hi ->]. cbn [rVal vortexF vPlus vMinus].
  destruct (length kl) as [|n]; [lia|].
  set (h := fun j => nth j hs 0%R) in *. set (l := fun j => nth j ls 0%R) in *. set (c := fun j => nth j cs 0%R) in *.
  assert (U : up_moves hs ls = tab n (fun j => Rabs (h (S j) - l j))) by (unfold up_moves; rewrite Th, Tl, tl_tab, pointwise_short; reflexivity).
  assert (D : down_moves hs ls = tab n (fun j => Rabs (l (S j) - h j))) by (unfold down_moves; rewrite Th, Tl, tl_tab, pointwise_short; reflexivity).
  assert (T : true_ranges hs ls cs = tab n (fun j => Rmax (h (S j) - l (S j)) (Rmax (Rabs (h (S j) - c j)) (Rabs (l (S j) - c j)))))
    by (unfold true_ranges; rewrite Th, Tl, Tc, !tl_tab, combine_tab, pointwise_short; reflexivity).
  unfold total. rewrite U, D, T.
  rewrite (@ringS_exact p (vPF kl) (fun j => match j with O => 0%R | S j => Rabs (h (S j) - l j) end) n i Hi).
  2: { intros [|j] Hj; [reflexivity|]. unfold vPF. rewrite Gh, Gl, xr_sub by lia. reflexivity. }
  rewrite (@ringS_exact p (vMF kl) (fun j => match j with O => 0%R | S j => Rabs (l (S j) - h j) end) n i Hi).
  2: { intros [|j] Hj; [reflexivity|]. unfold vMF. rewrite Gh, Gl, xr_sub by lia. reflexivity. }
  rewrite (@ringS_exact p (tr3F kl) (fun j => match j with O => 0%R | S j => Rmax (h (S j) - l (S j)) (Rmax (Rabs (h (S j) - c j)) (Rabs (l (S j) - c j))) end) n i Hi).
  2: { intros [|j] Hj; [reflexivity|]. unfold tr3F. rewrite !Gh, !Gl, Gc, !xr_sub, !xr_abs, !xr_max by lia. reflexivity. }
  split; reflexivity.
Qed.
Print Assumptions C77_exact.
(** Neither line is ever negative in exact arithmetic. *)
Theorem C77_nonnegative (p : nat) (kl : list (Candle (N := XR))) (hs ls cs : list R) (rows : list (row (VortexV (N := XR)))) (r : row (VortexV (N := XR))) : (1 <= p)%nat ->
  highs kl = fins hs -> lows kl = fins ls -> closes kl = fins cs ->
  rows_of (N := XR) I_Vortex (Z.of_nat p) kl = Ok rows -> In r rows ->
  (vPlus (rVal r) <~ Fin 0) = false /\ (vMinus (rVal r) <~ Fin 0) = false.
Proof.
  intros Hp Eh El Ec E Hr. destruct (@C77_exact p kl hs ls cs Hp Eh El Ec) as (rows' & E' & _ & H0 & HS). rewrite E in E'. injection E' as <-.
  apply In_nth_error in Hr as ([|i] & Hi).
  - destruct (H0 r Hi) as [-> ->]. cbn. destruct (Rltb_spec 0 0); [lra|]. split; reflexivity.
  - destruct (HS i r Hi) as [-> ->].
    assert (P : forall l, (forall x, In x l -> (0 <= x)%R) -> (0 <= Rsum l)%R).
    { induction l as [|x l IH]; intros H; [rewrite Rsum_nil; lra|]. rewrite Rsum_cons. pose proof (H x (or_introl eq_refl)). pose proof (IH (fun y Hy => H y (or_intror Hy))). lra. }
    assert (W : forall A B (f : A -> B -> R) xs ys, (forall a b, 0 <= f a b)%R -> forall x, In x (window (pointwise f xs ys) i p) -> (0 <= x)%R).
    { intros A B f xs ys Hf x Hx. apply window_In in Hx. apply in_map_iff in Hx as ([a b] & <- & _). apply Hf. }
    assert (Q : forall a b : R, (0 <= a)%R -> (0 <= b)%R -> (@fdiv XR (Fin a) (Fin b) <~ Fin 0) = false).
    { intros a b Ha Hb. cbn. destruct (Reqb_spec b 0).
      - unfold inf_sgn. destruct (Rltb_spec 0 a); [reflexivity|]. destruct (Rltb_spec a 0); [lra|reflexivity].
      - cbn. destruct (Rltb_spec (a / b) 0) as [X|]; [|reflexivity]. exfalso. assert (0 < / b)%R by (apply Rinv_0_lt_compat; lra). unfold Rdiv in X. nra. }
    split; apply Q; apply P; apply W; intros; try apply Rabs_pos;
      (eapply Rle_trans; [apply Rabs_pos|]; eapply Rle_trans; [apply Rmax_l|]; apply Rmax_r).
Qed.
Print Assumptions C77_nonnegative.
(** In float64 the running sums lose low bits, and a line can turn negative. *)
Theorem C77_float_refuted :
  let b := 2 ^ 53 in
  rmap (map (fun r => vPlus (rVal r) <~ ofZ 0)) (rows_of (N := EX) I_Vortex 2
    [kd 0 0 0 0 1 60; kd b b (b - 1) b 1 120; kd b b (b - 1) b 1 180; kd (b - 2) (b - 1) (b - 3) (b - 2) 1 240; kd (b - 4) (b - 3) (b - 5) (b - 4) 1 300]) =
  Ok [false; false; false; false; true].
Proof. vm_compute. reflexivity. Qed.
Print Assumptions C77_float_refuted.
(** A negative period panics; period 0 panics from two candles on. *)
Theorem C77_panics_iff (N : Num) (p : Z) (kl : list Candle) : rows_of I_Vortex p kl = Panic <-> p < 0 \/ p = 0 /\ 2 <= len kl.
Proof.
  destruct (Z_lt_le_dec p 1) as [Hp|Hp]; [|rewrite Vortex_T by exact Hp; split; [discriminate|lia]].
  T_start I_Vortex vortex_calc. unfold vortex. rewrite len_tab, make_tab. cbn [bind].
  destruct (Z.eq_dec p 0) as [->|Hn].
  - change (make fzero 0) with (Ok (@nil F)). cbn [bind]. assert (L : len kl = Z.of_nat (length kl)) by reflexivity. destruct (Z_le_gt_dec 2 (Z.of_nat (length kl))) as [Hl|Hl].
    + rewrite for_step by lia. cbn [zmod Z.eqb bind]. split; [lia|reflexivity].
    + rewrite for_empty by lia. cbn [bind]. rewrite <- tab_const, len_tab.
      rewrite (@append_rows_T _ _ _ _ _ _ (fun _ => mkVortexV fzero fzero) _ eq_refl); [split; [discriminate|lia]|intros; now apply time_at_T|T_get].
  - rewrite make_neg by lia. split; [lia|reflexivity].
Qed.
Print Assumptions C77_panics_iff.
Example C77_hyp : rmap (map (fun r => (vPlus (rVal r) *~ fz 2 ==~ fz 3, vPlus (rVal r) ==~ vMinus (rVal r)))) (rows_of (N := EX) I_Vortex 2 [kd 5 6 4 5 1 60; kd 6 7 5 6 1 120; kd 6 7 3 4 1 180]) =
  Ok [(false, true); (true, false); (false, true)].
Proof. vm_compute. reflexivity. Qed.

(** ** C78 *)
(** Directional movement and true range of a bar: the larger of the rise of the high and the fall of the low, if it is
    positive, counts on its side. *)
Definition movement {N : Num} (c' c : Candle) (up down range : F) : Prop :=
  let rise := cHigh c -~ cHigh c' in
  let fall := cLow c' -~ cLow c in
  up = (if (fall <~ rise) && (ofZ 0 <~ rise) then rise else ofZ 0) /\
  down = (if (rise <~ fall) && (ofZ 0 <~ fall) then fall else ofZ 0) /\
  range = fmax (cHigh c -~ cLow c) (fmax (fabs (cHigh c -~ cClose c')) (fabs (cLow c -~ cClose c'))).
(** Wilder's smoothed total: 0 at the first bar, then the old total less one p-th of it plus the new value *)
Definition smoothing_of {N : Num} (p : Z) (xs ys : list F) : Prop :=
  length ys = length xs /\ (forall y, nth_error ys 0 = Some y -> y = ofZ 0) /\
  forall i x y' y, nth_error xs (S i) = Some x -> nth_error ys i = Some y' -> nth_error ys (S i) = Some y -> y = y' -~ y' /~ ofZ p +~ x.
Definition directional {N : Num} (p : AdxP) (kl : list Candle) (rows : list (row AdxV)) (dx : list F) : Prop :=
  exists ups downs ranges su sd sr,
    length ups = length kl /\ length downs = length kl /\ length ranges = length kl /\
    (forall i c' c u d t, nth_error kl i = Some c' -> nth_error kl (S i) = Some c ->
       nth_error ups (S i) = Some u -> nth_error downs (S i) = Some d -> nth_error ranges (S i) = Some t -> movement c' c u d t) /\
    smoothing_of (axLen p) ups su /\ smoothing_of (axLen p) downs sd /\ smoothing_of (axLen p) ranges sr /\
    length rows = length kl /\ length dx = length kl /\
    forall i r u d t x, nth_error rows i = Some r -> nth_error su i = Some u -> nth_error sd i = Some d -> nth_error sr i = Some t -> nth_error dx i = Some x ->
      let plus := axPlus (rVal r) in let minus := axMinus (rVal r) in
      if Z.of_nat i <? axPeriod p - 1 then plus = ofZ 0 /\ minus = ofZ 0 /\ x = ofZ 0
      else plus = u /~ t *~ ofZ 100 /\ minus = d /~ t *~ ofZ 100 /\ x = ofZ 100 *~ (fabs (plus -~ minus) /~ (plus +~ minus)).
Lemma smoothing_T (N : Num) p n f : smoothing_of p (tab n f) (tab n (smoothF p f)).
Proof.
  split; [now rewrite !tab_length|]. split.
  - intros y Hy. apply tab_some in Hy as [_ ->]. reflexivity.
  - intros i x y' y Hx Hy' Hy. apply tab_some in Hx as [_ ->]. apply tab_some in Hy' as [_ ->]. apply tab_some in Hy as [_ ->]. reflexivity.
Qed.
(** The two directional lines and the directional index of each bar; the ADX column is the simple moving average (ta.Sma,
    C08) of the directional index. *)
Theorem C78_formula (N : Num) (p : AdxP) (kl : list Candle) : 1 <= axPeriod p -> 0 <= axLen p ->
  exists rows dx, rows_of I_ADX p kl = Ok rows /\ directional p kl rows dx /\
    Sma (axLen p) dx = Ok (column (fun v => axADX v) rows).
Proof.
  intros Hp Hl. rewrite ADX_T by assumption.
  eexists _, (tab (length kl) (fun j => snd (diF (axPeriod p) (axLen p) kl j))). split; [reflexivity|]. split.
  - exists (tab (length kl) (fun i => fst (dmF kl i))), (tab (length kl) (fun i => snd (dmF kl i))), (tab (length kl) (tr3F kl)).
    eexists _, _, _. rewrite !tab_length. repeat (split; [reflexivity|]). split.
    + intros i c' c u d t Hc' Hc Hu Hd Ht. apply tab_some in Hu as [_ ->]. apply tab_some in Hd as [_ ->]. apply tab_some in Ht as [_ ->].
      apply cn_some in Hc', Hc. cbn [dmF tr3F]. rewrite Hc', Hc. unfold movement, calculateDM. cbn [fst snd]. repeat split; reflexivity.
    + split; [apply smoothing_T|]. split; [apply smoothing_T|]. split; [apply smoothing_T|]. split; [reflexivity|]. split; [reflexivity|].
      intros i r u d t x Hr Hu Hd Ht Hx. apply tab_some in Hr as [_ ->]. apply tab_some in Hu as [_ ->]. apply tab_some in Hd as [_ ->]. apply tab_some in Ht as [_ ->]. apply tab_some in Hx as [_ ->].
      cbn [rVal]. unfold adxF, diF. cbn [axPlus axMinus].
      destruct (Nat.ltb_spec i (Z.to_nat (axPeriod p - 1))), (Z.ltb_spec (Z.of_nat i) (axPeriod p - 1)); try lia; repeat split; reflexivity.
  - rewrite column_T, Sma_T by exact Hl. reflexivity.
Qed.
Print Assumptions C78_formula.

(** a candle of exact numbers whose close lies between low and high *)
Definition formed (c : Candle (N := XR)) : Prop := exists h l x, cHigh c = Fin h /\ cLow c = Fin l /\ cClose c = Fin x /\ (l <= x <= h)%R.
Section Exact.
Variables (p : AdxP) (kl : list (Candle (N := XR))).
Hypothesis Hk : Forall formed kl.
Hypothesis Hp : 1 <= axPeriod p.
Hypothesis Hl : 1 <= axLen p.
Lemma formed_cn i : (i < length kl)%nat -> formed (cn kl i).
Proof. intros Hi. rewrite Forall_forall in Hk. apply Hk. eapply nth_error_In. apply cn_in. exact Hi. Qed.
Lemma smooth_parts i : (i < length kl)%nat -> exists a b t u d r,
  smoothF (N := XR) (axLen p) (fun i => fst (dmF kl i)) i = Fin a /\ smoothF (N := XR) (axLen p) (fun i => snd (dmF kl i)) i = Fin b /\ smoothF (N := XR) (axLen p) (tr3F kl) i = Fin t /\
  dmF kl i = (Fin u, Fin d) /\ tr3F kl i = Fin r /\ (0 <= a)%R /\ (0 <= b)%R /\ (a + b <= t)%R /\ (r <= t)%R /\ (0 <= r)%R.
Proof.
  induction i as [|i IH]; intros Hi.
  { exists 0%R, 0%R, 0%R, 0%R, 0%R, 0%R. cbn [smoothF dmF tr3F]. repeat (split; [reflexivity|]). lra. }
  destruct IH as (a & b & t & u & d & r & Ea & Eb & Et & Ed & Er & A0 & B0 & AB & Rt & R0); [lia|].
  destruct (@formed_cn i ltac:(lia)) as (h' & l' & x' & Eh' & El' & Ex' & W'). destruct (@formed_cn (S i) Hi) as (h & l & x & Eh & El & Ex & W).
  set (rise := (h - h')%R). set (fall := (l' - l)%R). set (R1 := Rmax (h - l) (Rmax (Rabs (h - x')) (Rabs (l - x')))).
  set (u1 := if Rltb fall rise && Rltb 0 rise then rise else 0%R). set (d1 := if Rltb rise fall && Rltb 0 fall then fall else 0%R).
  assert (Hz : (1 <= IZR (axLen p))%R) by (apply IZR_le; exact Hl). assert (Hnz : IZR (axLen p) <> 0%R) by lra.
  assert (EM : dmF kl (S i) = (Fin u1, Fin d1)).
  { cbn [dmF]. rewrite Eh', El', Eh, El. unfold calculateDM. rewrite !xr_sub, !xr_ofZ. cbv zeta. rewrite !xr_lt. fold rise fall. unfold u1, d1.
    destruct (Rltb fall rise && Rltb 0 rise), (Rltb rise fall && Rltb 0 fall); reflexivity. }
  assert (ET : tr3F kl (S i) = Fin R1) by (cbn [tr3F]; rewrite Eh, El, Ex', !xr_sub, !xr_abs, !xr_max; reflexivity).
  cbn [smoothF]. rewrite Ea, Eb, Et, EM, ET. cbn [fst snd]. rewrite !xr_ofZ, !xr_div, !xr_sub, !xr_add by exact Hnz.
  exists (a - a / IZR (axLen p) + u1)%R, (b - b / IZR (axLen p) + d1)%R, (t - t / IZR (axLen p) + R1)%R, u1, d1, R1.
  repeat (split; [reflexivity|]).
  assert (Hq : (0 < / IZR (axLen p) <= 1)%R).
  { split; [apply Rinv_0_lt_compat; lra|]. rewrite <- Rinv_1. apply Rinv_le_contravar; lra. }
  assert (U : (0 <= u1 /\ 0 <= d1 /\ u1 + d1 <= R1)%R).
  { assert (M1 : (h - l <= R1)%R) by apply Rmax_l. assert (M2 : (Rabs (h - x') <= R1)%R) by (eapply Rle_trans; [apply Rmax_l|apply Rmax_r]).
    assert (M3 : (Rabs (l - x') <= R1)%R) by (eapply Rle_trans; [apply Rmax_r|apply Rmax_r]).
    pose proof (Rle_abs (h - x')). pose proof (Rle_abs (- (l - x'))) as M4; rewrite Rabs_Ropp in M4. unfold u1, d1.
    destruct (Rltb_spec fall rise), (Rltb_spec 0 rise), (Rltb_spec rise fall), (Rltb_spec 0 fall); cbn [andb]; unfold rise, fall in *; lra. }
  assert (R10 : (0 <= R1)%R) by lra. unfold Rdiv. set (k := (/ IZR (axLen p))%R) in *. assert (T0 : (0 <= t)%R) by lra. repeat split; try lra; try nra.
Qed.
(** In exact arithmetic both directional lines are numbers between 0 and 100, and so is their sum, or both are NaN: the
    latter only where the bar itself has no range at all. *)
Theorem C78_range : exists rows, rows_of (N := XR) I_ADX p kl = Ok rows /\ length rows = length kl /\
  forall i r, nth_error rows i = Some r ->
    let plus := axPlus (rVal r) in let minus := axMinus (rVal r) in
    (exists a b, plus = Fin a /\ minus = Fin b /\ 0 <= a /\ 0 <= b /\ a + b <= 100)%R \/
    plus = NaN /\ minus = NaN /\ axPeriod p - 1 <= Z.of_nat i /\
      forall c h l, nth_error kl i = Some c -> (0 < i)%nat -> cHigh c = Fin h -> cLow c = Fin l -> h = l.
Proof.
  rewrite (@ADX_T XR) by lia. eexists. split; [reflexivity|]. split; [apply tab_length|]. intros i r Hr. apply tab_some in Hr as [Hi ->].
  cbn [rVal adxF axPlus axMinus]. unfold diF. destruct (Nat.ltb_spec i (Z.to_nat (axPeriod p - 1))) as [Hip|Hip].
  { left. exists 0%R, 0%R. cbn [fst snd]. repeat (split; [reflexivity|]). lra. }
  destruct (smooth_parts Hi) as (a & b & t & u & d & q & Ea & Eb & Et & Ed & Er & A0 & B0 & AB & Rt & R0).
  rewrite Ea, Eb, Et. unfold adx_di. cbn [fst snd]. destruct (Req_dec t 0) as [->|Ht].
  - right. assert (a = 0%R) by lra. assert (b = 0%R) by lra. subst a b.
    assert (Q : @fdiv XR (Fin 0) (Fin 0) = NaN) by apply xdiv_00. rewrite Q. split; [reflexivity|]. split; [reflexivity|]. split; [lia|].
    intros c h l Hc Hi0 Eh El. apply cn_some in Hc. destruct i as [|j]; [lia|]. cbn [tr3F] in Er. rewrite Hc, Eh, El in Er.
    destruct (@formed_cn j ltac:(lia)) as (h' & l' & x' & Eh' & El' & Ex' & W'). rewrite Ex', !xr_sub, !xr_abs, !xr_max in Er. injection Er as Er.
    pose proof (@formed_cn (S j) Hi) as (h2 & l2 & x2 & Eh2 & El2 & Ex2 & W2). rewrite Hc in *. rewrite Eh in Eh2. rewrite El in El2. injection Eh2 as ->. injection El2 as ->.
    pose proof (Rmax_l (h2 - l2) (Rmax (Rabs (h2 - x')) (Rabs (l2 - x')))). lra.
  - left. rewrite !xr_div, !xr_ofZ, !xr_mul by exact Ht. exists (a / t * 100)%R, (b / t * 100)%R. split; [reflexivity|]. split; [reflexivity|].
    assert (0 < t)%R by lra. assert (It : (0 < / t)%R) by (apply Rinv_0_lt_compat; lra). assert ((a + b) / t <= 1)%R by (apply Rmult_le_reg_r with t; [lra|]; unfold Rdiv; rewrite Rmult_assoc, Rinv_l; lra).
    unfold Rdiv in *. split; [nra|]. split; [nra|]. lra.
Qed.
Lemma runF_nan q (f : nat -> @F XR) j i : (j < i)%nat -> f j = NaN -> runF (N := XR) q f i = NaN.
Proof.
  intros Hj Hf. induction i as [|i IH]; [lia|]. cbn [runF]. assert (Q : @fadd XR (runF (N := XR) q f i) (f i) = NaN).
  { destruct (Nat.eq_dec j i) as [<-|]; [rewrite Hf; destruct (runF _ _ _); reflexivity|]. rewrite IH by lia. reflexivity. }
  rewrite Q. destruct (_ <=? _)%nat; reflexivity.
Qed.
Lemma dx_cases i : (i < length kl)%nat -> snd (diF (N := XR) (axPeriod p) (axLen p) kl i) = NaN \/
  exists x, snd (diF (N := XR) (axPeriod p) (axLen p) kl i) = Fin x /\ (0 <= x <= 100)%R.
Proof.
  intros Hi. unfold diF. destruct (Nat.ltb_spec i (Z.to_nat (axPeriod p - 1))) as [Hip|Hip]; [right; exists 0%R; split; [reflexivity|lra]|].
  destruct (smooth_parts Hi) as (a & b & t & u & d & q & Ea & Eb & Et & Ed & Er & A0 & B0 & AB & Rt & R0).
  rewrite Ea, Eb, Et. unfold adx_di. cbn [snd]. destruct (Req_dec t 0) as [->|Ht].
  - left. assert (a = 0%R) by lra. assert (b = 0%R) by lra. subst a b.
    assert (Q : @fdiv XR (Fin 0) (Fin 0) = NaN) by apply xdiv_00. rewrite Q. reflexivity.
  - rewrite !xr_div, !xr_ofZ, !xr_mul, xr_add, xr_sub, xr_abs by exact Ht. assert (0 < t)%R by lra. assert (It : (0 < / t)%R) by (apply Rinv_0_lt_compat; lra).
    assert (P1 : (0 <= a / t * 100)%R) by (unfold Rdiv; nra). assert (P2 : (0 <= b / t * 100)%R) by (unfold Rdiv; nra).
    set (x := (a / t * 100)%R) in *. set (y := (b / t * 100)%R) in *. clearbody x y. destruct (Req_dec (x + y) 0) as [E|E].
    + left. assert (x = 0%R) by lra. assert (y = 0%R) by lra. subst x y. replace (0 - 0)%R with 0%R by lra. replace (0 + 0)%R with 0%R by lra. rewrite Rabs_R0.
      assert (Q : @fdiv XR (Fin 0) (Fin 0) = NaN) by apply xdiv_00. rewrite Q. reflexivity.
    + right. rewrite xr_div, xr_mul by exact E. eexists. split; [reflexivity|].
      assert (Rabs (x - y) <= x + y)%R by (apply Rabs_le; lra). pose proof (Rabs_pos (x - y)). assert (0 < / (x + y))%R by (apply Rinv_0_lt_compat; lra).
      assert (Rabs (x - y) / (x + y) <= 1)%R by (apply Rmult_le_reg_r with (x + y)%R; [lra|]; unfold Rdiv; rewrite Rmult_assoc, Rinv_l; lra).
      unfold Rdiv in *. split; [|lra]. assert (0 <= Rabs (x - y) * / (x + y))%R by (apply Rmult_le_pos; lra). lra.
Qed.
(** While every directional index so far is a number, the ADX is the mean of the last of them and between 0 and 100; from the
    first one on that is not (bars without any directional movement), the ADX is 0 for ever. *)
Theorem C78_adx : exists rows dx, rows_of (N := XR) I_ADX p kl = Ok rows /\ directional p kl rows dx /\
  forall i r, nth_error rows i = Some r ->
    (forall xs : list R, firstn (S i) dx = fins xs -> axADX (rVal r) = Fin (mean (window xs i (Z.to_nat (axLen p)))) /\ within Exact 0 100 (axADX (rVal r))) /\
    ((exists j, (j <= i)%nat /\ nth_error dx j = Some NaN) -> axADX (rVal r) = Fin 0).
Proof.
  destruct (@C78_formula XR p kl Hp ltac:(lia)) as (rows & dx & E & D & S0). pose proof E as E'. rewrite (@ADX_T XR) in E' by lia. injection E' as <-.
  eexists _, dx. split; [exact E|]. split; [exact D|]. clear E. 
  assert (Edx : dx = tab (length kl) (fun j => snd (diF (N := XR) (axPeriod p) (axLen p) kl j))).
  { apply list_ext. intros i. destruct (Nat.lt_ge_cases i (length kl)) as [Hi|Hi].
    - destruct D as (ups & downs & ranges & su & sd & sr & L1 & L2 & L3 & HM & (Lu & U0 & US) & (Ld & D0 & DS) & (Lt & T0 & TS) & Lr & Lx & HR).
      rewrite tab_nth_error by exact Hi.
      destruct (nth_error dx i) as [x|] eqn:Ex; [|apply nth_error_None in Ex; lia]. f_equal.
      destruct (nth_error su i) as [u|] eqn:Eu; [|apply nth_error_None in Eu; lia].
      destruct (nth_error sd i) as [d|] eqn:Ed; [|apply nth_error_None in Ed; lia].
      destruct (nth_error sr i) as [t|] eqn:Et; [|apply nth_error_None in Et; lia].
      specialize (HR i (mkRow (tm kl i) (adxF (axPeriod p) (axLen p) kl i)) u d t x). rewrite tab_nth_error in HR by exact Hi.
      specialize (HR eq_refl Eu Ed Et Ex). cbn [rVal adxF axPlus axMinus] in HR.
      destruct (Z.ltb_spec (Z.of_nat i) (axPeriod p - 1)) as [Hip|Hip]; destruct HR as (R1 & R2 & R3); rewrite R3.
      + unfold diF. destruct (Nat.ltb_spec i (Z.to_nat (axPeriod p - 1))); [reflexivity|lia].
      + unfold diF. destruct (Nat.ltb_spec i (Z.to_nat (axPeriod p - 1))); [lia|reflexivity].
    - transitivity (@None xr); [|symmetry]; apply nth_error_None; [|rewrite tab_length; exact Hi].
      destruct D as (? & ? & ? & ? & ? & ? & _ & _ & _ & _ & _ & _ & _ & _ & Lx & _). apply Nat.le_trans with (length kl); [apply Nat.eq_le_incl; exact Lx|exact Hi]. }
  intros i r Hr. apply tab_some in Hr as [Hi ->]. cbn [rVal adxF axADX]. set (f := fun j => snd (diF (N := XR) (axPeriod p) (axLen p) kl j)) in *. split.
  - intros xs Hxs. set (g := fun j => nth j xs 0%R).
    assert (Lx : length xs = S i).
    { apply (f_equal (@length _)) in Hxs. rewrite firstn_length, fins_length, Edx, tab_length in Hxs. lia. }
    assert (EF : forall j, (j < S i)%nat -> f j = Fin (g j)).
    { intros j Hj. apply (f_equal (fun l => nth_error l j)) in Hxs. rewrite nth_error_firstn_lt, Edx, tab_nth_error in Hxs by lia.
      unfold fins in Hxs. rewrite nth_error_map, (nth_error_nth' xs 0%R) in Hxs by lia. cbn in Hxs. now injection Hxs. }
    assert (Ex : xs = tab (S i) g) by (rewrite <- Lx; apply tab_of_list).
    pose proof (@smaF_exact (Z.to_nat (axLen p)) f g (S i) i ltac:(lia) ltac:(lia) EF) as ES.
    rewrite Ex at 1. split; [exact ES|]. eexists. split; [exact ES|]. apply mean_bounds; [apply window_not_nil; [rewrite tab_length; lia|lia]|].
    intros x Hx. apply In_window_tab in Hx as (j & Hj & ->). destruct (@dx_cases j ltac:(lia)) as [Q|(y & Q & B)].
    + exfalso. pose proof (EF j Hj) as Q'. unfold f in Q'. rewrite Q in Q'. discriminate.
    + pose proof (EF j Hj) as Q'. unfold f in Q'. rewrite Q in Q'. injection Q' as <-. exact B.
  - intros (j & Hj & Ej). rewrite Edx, tab_nth_error in Ej by lia. injection Ej as Ej. unfold smaF. rewrite (@runF_nan _ f j (S i)) by (lia || exact Ej).
    reflexivity.
Qed.
End Exact.
Print Assumptions C78_range.
Print Assumptions C78_adx.
(** So ADX is not an average of the directional index: three candles without movement first, then a steady climb; the index of
    the last three bars is 100, and the ADX (over 2 bars) is 0. *)
Theorem C78_average_refuted :
  let kl := [kd 9 10 8 9 1 60; kd 9 10 8 9 1 120; kd 9 10 8 9 1 180; kd 10 11 9 10 1 240; kd 11 12 10 11 1 300; kd 12 13 11 12 1 360] in
  rmap (map (fun r => (ofZ 0 <~ axPlus (rVal r), axMinus (rVal r) ==~ ofZ 0, axADX (rVal r) ==~ ofZ 0))) (rows_of (N := EX) I_ADX (mkAdxP 2 2) kl) =
  Ok [(false, true, true); (false, true, true); (false, true, true); (true, true, true); (true, true, true); (true, true, true)].
Proof. vm_compute. reflexivity. Qed.
Print Assumptions C78_average_refuted.
(** A period of 0 or less panics, on any candles. *)
Theorem C78_panics (N : Num) (p : AdxP) (kl : list Candle) : axPeriod p <= 0 -> rows_of I_ADX p kl = Panic.
Proof.
  intros Hp. T_start I_ADX adx_calc. rewrite adx_dm_T. cbn [bind]. rewrite !smooth_T. cbn [bind]. rewrite len_tab. unfold adx_lines. rewrite make_tab. cbn [bind].
  rewrite for_step by lia. rewrite get_out by lia. reflexivity.
Qed.
Print Assumptions C78_panics.
Example C78_hyp :
  rmap (map (fun r => axADX (rVal r) ==~ ofZ 100)) (rows_of (N := EX) I_ADX (mkAdxP 2 2) [kd 9 10 8 9 1 60; kd 10 11 9 10 1 120; kd 11 12 10 11 1 180]) = Ok [false; false; true].
Proof. vm_compute. reflexivity. Qed.
