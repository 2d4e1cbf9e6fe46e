(** * PropMirror2: property C98, continued: weighted averages and oscillators. *)
From Coq Require Import Reals Lra ZArith Lia Bool List PeanoNat.
From Verif Require Import Base Num XReal Order OrderMore FloatLaws FloatOrder FloatBounds SpecNum B64 Lits Containers Ta TaTools TaAvg TaRange TaStat SpecTa Sides Klines RSum XrMore
  IndBase IndTrend IndChannel IndOsc IndVolume IndTools IndForms IndForms2 IndForms3 IndForms4 IndForms5 IndFormsSpec IndBounds IndBounds2 IndExact TaDev TaReg SpecInd SpecInd2 SpecBar SpecMemory SpecMirror
  PropInd1 PropInd2 PropInd5 PropInd6 PropInd7 PropInd8 PropInd9 PropInd11 PropInd12 PropMemory ShiftTools PropShift MirrorTools PropMirror.
Import ListNotations.
Set Implicit Arguments.
Open Scope Z_scope.
Local Notation C kl := (fun i => cClose (cn kl i)).
Local Notation H kl := (fun i => cHigh (cn kl i)).
Local Notation L kl := (fun i => cLow (cn kl i)).
Local Notation V kl := (fun i => cVolume (cn kl i)).
Local Notation rows kl g := (Ok (tab (length kl) (fun i => mkRow (tm kl i) (g i)))).
Local Notation kline := (list (Candle (N := XR))).
Local Notation same_level := (fun c : R => c).
Local Notation negated := (fun _ : R => 0%R).

(** a volume-weighted average, once there is volume to weigh with *)
Theorem C98_Vwma (p : nat) (c : R) (kl : kline) : (1 <= p)%nat -> real_candles kl -> (forall k, In k kl -> (fzero <~ cVolume k) = true) ->
  exists r r', rows_of I_Vwma (Z.of_nat p) kl = Ok r /\ rows_of I_Vwma (Z.of_nat p) (map (mirrored c) kl) = Ok r' /\
    length r = length kl /\ column (fun v => v) r' = map (fun x => (Fin c : @F XR) -~ x) (column (fun v => v) r).
Proof.
  intros Hp Hr Hv. eexists _, _. split; [apply Vwma_T; lia|]. split; [apply Vwma_T; lia|]. split; [apply tab_length|].
  unfold column. rewrite map_length, !tabmap, Nat2Z.id. cbn [rVal]. apply tab_ext. intros i Hi. unfold vwmaF.
  set (cs := fun j => val (C kl j)). set (vs := fun j => val (V kl j)).
  assert (EC : forall j, (j < length kl)%nat -> C kl j = Fin (cs j)) by (intros j Hj; unfold cs; destruct (mir_close c Hr Hj) as (r & E & _); cbn in E |- *; now rewrite E).
  assert (EV : forall j, (j < length kl)%nat -> V kl j = Fin (vs j) /\ (0 < vs j)%R).
  { intros j Hj. unfold vs. destruct (real_cn Hr Hj) as (b & _ & _ & _ & _ & E). rewrite E. split; [reflexivity|]. cbn [val].
    specialize (Hv (cn kl j) ltac:(unfold cn; now apply nth_In)). rewrite E in Hv. cbn in Hv. now destruct (Rltb_spec 0 (bV b)). }
  rewrite (@runF_exact p (fun j => C kl j *~ V kl j) (fun j => cs j * vs j)%R (length kl) i Hi) by (intros j Hj; cbn beta; rewrite (EC j Hj), (proj1 (EV j Hj)); reflexivity).
  rewrite (@runF_exact p (V kl) vs (length kl) i Hi) by (intros j Hj; now apply EV).
  rewrite (@runF_exact p (fun j => C (map (mirrored c) kl) j *~ V (map (mirrored c) kl) j) (fun j => (c - cs j) * vs j)%R (length kl) i Hi).
  2:{ intros j Hj. cbn beta. rewrite (mir_volume c kl Hj), (proj1 (EV j Hj)). destruct (mir_close c Hr Hj) as (r & E & E'). cbn beta in E, E'. rewrite E'. pose proof (EC j Hj) as Q. cbn beta in Q. rewrite E in Q. injection Q as ->. reflexivity. }
  rewrite (@runF_exact p (V (map (mirrored c) kl)) vs (length kl) i Hi) by (intros j Hj; rewrite (mir_volume c kl Hj); now apply EV).
  rewrite !PropInd8.div_clean_exact.
  set (w := window (seq 0 (length kl)) i p).
  assert (W : forall h : nat -> R, window (tab (length kl) h) i p = map h w) by (intros h; unfold w; rewrite <- window_map; reflexivity).
  rewrite !W. assert (Wn : w <> []) by (apply win_ne; [exact Hp|now rewrite seq_length]).
  assert (Wi : forall j, In j w -> (j < length kl)%nat) by (intros j Hj; apply window_In in Hj; apply in_seq in Hj; lia).
  assert (S1 : Rsum (map (fun j => (c - cs j) * vs j)%R w) = (c * Rsum (map vs w) - Rsum (map (fun j => cs j * vs j) w))%R).
  { generalize w. clear. intros w. induction w as [|j w IH]; [unfold Rsum; cbn; lra|]. change (Rsum (map (fun j => (c - cs j) * vs j) (j :: w)))%R with ((c - cs j) * vs j + Rsum (map (fun j => (c - cs j) * vs j) w))%R.
    change (Rsum (map (fun j => cs j * vs j) (j :: w)))%R with (cs j * vs j + Rsum (map (fun j => cs j * vs j) w))%R. change (Rsum (map vs (j :: w))) with (vs j + Rsum (map vs w))%R. rewrite IH. lra. }
  assert (S2 : (0 < Rsum (map vs w))%R).
  { revert Wn Wi. generalize w. clear -EV. intros w. induction w as [|j w IH]; intros Wn Wi; [congruence|]. pose proof (proj2 (EV j (Wi j (or_introl eq_refl)))). destruct w as [|k w]; [unfold Rsum; cbn; lra|].
    assert (0 < Rsum (map vs (k :: w)))%R by (apply IH; [discriminate|intros; apply Wi; now right]). change (Rsum (map vs (j :: k :: w))) with (vs j + Rsum (map vs (k :: w)))%R. lra. }
  rewrite S1, !SpecBar.ratio_nz by lra. cbn [fsub XR xsub xadd xneg]. f_equal. field. now apply Rgt_not_eq.
Qed.

(** ** RSI: 100 - x; without any movement both charts have 0 *)
Lemma rsi_add_swap d g l : exists g' l', rsi_add (N := XR) (Fin d) (Fin g) (Fin l) = (Fin g', Fin l') /\ rsi_add (N := XR) (Fin (- d)) (Fin l) (Fin g) = (Fin l', Fin g').
Proof.
  unfold rsi_add. cbn. destruct (Rltb_spec d 0), (Rltb_spec (- d) 0); try lra.
  - exists g, (l + - d)%R. now split.
  - exists (g + d)%R, l. split; [reflexivity|]. do 2 f_equal. lra.
  - assert (d = 0)%R as -> by lra. exists g, l. split; f_equal; f_equal; lra.
Qed.
Lemma rsi_avg_fin p g l : (1 <= p)%nat -> rsi_avg (N := XR) p (Fin g, Fin l) = (Fin (g / IZR (Z.of_nat p)), Fin (l / IZR (Z.of_nat p))).
Proof. intros Hp. assert (Z.of_nat p <> 0) by lia. assert (IZR (Z.of_nat p) <> 0)%R by (now apply not_0_IZR). unfold rsi_avg. cbn. destruct (Reqb_spec (IZR (Z.of_nat p)) 0); [contradiction|reflexivity]. Qed.
Lemma rsi_turn p c kl : (1 <= p)%nat -> real_candles kl -> forall i, (p <= i < length kl)%nat ->
  rsiF p (C (map (mirrored c) kl)) i = flip 100 (rsiF p (C kl) i) \/ (rsiF p (C (map (mirrored c) kl)) i = Fin 0 /\ rsiF p (C kl) i = Fin 0).
Proof.
  intros Hp Hr.
  assert (D : forall j, (S j < length kl)%nat -> exists d, C kl (S j) -~ C kl j = Fin d /\ C (map (mirrored c) kl) (S j) -~ C (map (mirrored c) kl) j = Fin (- d)).
  { intros j Hj. destruct (mir_close c Hr (j := S j) Hj) as (x & E1 & E2), (mir_close c Hr (j := j) ltac:(lia)) as (y & E3 & E4). cbn beta in *. rewrite E1, E2, E3, E4. exists (x - y)%R. split; cbn; f_equal; lra. }
  assert (A : forall j, (j < length kl)%nat -> exists g l, rsiA (C kl) j = (Fin g, Fin l) /\ rsiA (C (map (mirrored c) kl)) j = (Fin l, Fin g)).
  { induction j as [|j IH]; intros Hj; cbn [rsiA]; [exists 0%R, 0%R; now split|]. destruct (IH ltac:(lia)) as (g & l & -> & ->). destruct (D j Hj) as (d & E1 & E2). cbn [fst snd]. cbn beta in E1, E2. rewrite E1, E2. apply rsi_add_swap. }
  assert (W : forall d, (p + d < length kl)%nat -> exists g l, rsiW p (C kl) d = (Fin g, Fin l) /\ rsiW p (C (map (mirrored c) kl)) d = (Fin l, Fin g)).
  { induction d as [|d IH]; intros Hd; cbn [rsiW].
    - destruct (A p ltac:(lia)) as (g & l & -> & ->). rewrite !rsi_avg_fin by exact Hp. eauto.
    - destruct (IH ltac:(lia)) as (g & l & -> & ->). cbn [fst snd]. replace (p + S d)%nat with (S (p + d)) by lia. destruct (D (p + d)%nat ltac:(lia)) as (x & E1 & E2). cbn beta in E1, E2. rewrite E1, E2.
      destruct (rsi_add_swap x (g * IZR (Z.of_nat p - 1)) (l * IZR (Z.of_nat p - 1))) as (g' & l' & Q1 & Q2).
      change ((Fin g : @F XR) *~ ofZ (Z.of_nat p - 1)) with (Fin (g * IZR (Z.of_nat p - 1)) : @F XR). change ((Fin l : @F XR) *~ ofZ (Z.of_nat p - 1)) with (Fin (l * IZR (Z.of_nat p - 1)) : @F XR).
      rewrite Q1, Q2, !rsi_avg_fin by exact Hp. eauto. }
  intros i Hi. unfold rsiF. destruct (Nat.ltb_spec i p); [lia|]. destruct (W (i - p)%nat ltac:(lia)) as (g & l & -> & ->). cbn [fst snd]. unfold rsi_out. cbn zeta.
  change ((Fin g : @F XR) +~ Fin l) with (Fin (g + l) : @F XR). change ((Fin l : @F XR) +~ Fin g) with (Fin (l + g) : @F XR). rewrite (Rplus_comm l g).
  destruct (negb _) eqn:E; [left|right; now split].
  assert (g + l <> 0)%R. { intros Z. rewrite Z in E. cbn in E. destruct (Rltb_spec (-1 / 100000000000000) 0), (Rltb_spec 0 (1 / 100000000000000)); cbn in E; try discriminate; lra. }
  cbn. destruct (Reqb_spec (g + l) 0); [contradiction|]. unfold flip. cbn. f_equal. field. assumption.
Qed.
Theorem C98_Rsi (p : nat) (c : R) (kl : kline) : (2 <= p)%nat -> (p < length kl)%nat -> real_candles kl ->
  exists r r', rows_of I_Rsi (Z.of_nat p) kl = Ok r /\ rows_of I_Rsi (Z.of_nat p) (map (mirrored c) kl) = Ok r' /\ length r = length kl /\ length r' = length kl /\
    forall i x x', (p <= i)%nat -> nth_error (column (fun v => v) r) i = Some x -> nth_error (column (fun v => v) r') i = Some x' ->
      x' = (Fin 100 : @F XR) -~ x \/ (x = Fin 0 /\ x' = Fin 0).
Proof.
  intros Hp Hl Hr. eexists _, _. split; [now apply Rsi_T|]. split; [apply Rsi_T; [exact Hp|now rewrite map_length]|]. split; [apply tab_length|]. split; [rewrite tab_length; apply map_length|].
  intros i x x' Hi Hx Hx'. unfold column in Hx, Hx'. rewrite tabmap in Hx, Hx'. cbn [rVal] in Hx, Hx'. apply tab_some in Hx as [Li ->]. apply tab_some in Hx' as [_ ->].
  destruct (@rsi_turn p c kl ltac:(lia) Hr i ltac:(lia)) as [E|[E E']]; [left; exact E|right; now split].
Qed.

(** ** Windows of highs and lows *)
Lemma low_turn c n f g : turned c n f g -> forall s k, (s + k < n)%nat -> nrel c (highF f s k) (lowF g s k).
Proof. intros M s. induction k as [|k IH]; intros Hk; cbn [lowF highF]; [apply M; lia|]. specialize (IH ltac:(lia)). pose proof (M (s + S k)%nat Hk) as M1. rewrite (lt_turn M1 IH). destruct (_ <~ _); auto. Qed.
Lemma high_turn c n f g : turned c n f g -> forall s k, (s + k < n)%nat -> nrel c (lowF f s k) (highF g s k).
Proof. intros M s. induction k as [|k IH]; intros Hk; cbn [lowF highF]; [apply M; lia|]. specialize (IH ltac:(lia)). pose proof (M (s + S k)%nat Hk) as M1. rewrite (lt_turn IH M1). destruct (_ <~ _); auto. Qed.
Lemma low_least (f : nat -> @F XR) (h : nat -> R) n : (forall j, (j < n)%nat -> f j = Fin (h j)) -> forall s k, (s + k < n)%nat -> exists m, lowF f s k = Fin m /\ forall j, (s <= j <= s + k)%nat -> (m <= h j)%R.
Proof.
  intros E s. induction k as [|k IH]; intros Hk; cbn [lowF]; [exists (h s); split; [apply E; lia|intros j Hj; replace j with s by lia; lra]|].
  destruct (IH ltac:(lia)) as (m & -> & Hm). rewrite (E (s + S k)%nat) by lia. cbn. destruct (Rltb_spec (h (s + S k)%nat) m); eexists; (split; [reflexivity|]); intros j Hj; destruct (Nat.eq_dec j (s + S k)) as [->|]; try lra; specialize (Hm j ltac:(lia)); lra.
Qed.
Lemma high_greatest (f : nat -> @F XR) (h : nat -> R) n : (forall j, (j < n)%nat -> f j = Fin (h j)) -> forall s k, (s + k < n)%nat -> exists m, highF f s k = Fin m /\ forall j, (s <= j <= s + k)%nat -> (h j <= m)%R.
Proof.
  intros E s. induction k as [|k IH]; intros Hk; cbn [highF]; [exists (h s); split; [apply E; lia|intros j Hj; replace j with s by lia; lra]|].
  destruct (IH ltac:(lia)) as (m & -> & Hm). rewrite (E (s + S k)%nat) by lia. cbn. destruct (Rltb_spec m (h (s + S k)%nat)); eexists; (split; [reflexivity|]); intros j Hj; destruct (Nat.eq_dec j (s + S k)) as [->|]; try lra; specialize (Hm j ltac:(lia)); lra.
Qed.
Definition hi kl j := val (cHigh (cn kl j)).
Definition lo kl j := val (cLow (cn kl j)).
Lemma hi_is kl j : real_candles kl -> (j < length kl)%nat -> H kl j = Fin (hi kl j).
Proof. intros Hr Hj. destruct (real_cn Hr Hj) as (b & _ & E & _). unfold hi. cbn beta. now rewrite E. Qed.
Lemma lo_is kl j : real_candles kl -> (j < length kl)%nat -> L kl j = Fin (lo kl j).
Proof. intros Hr Hj. destruct (real_cn Hr Hj) as (b & _ & _ & E & _). unfold lo. cbn beta. now rewrite E. Qed.
Lemma moves_at d p from kl i : moves_by d p from kl -> (from <= i < length kl)%nat -> exists j k, (S i - p <= j <= i)%nat /\ (S i - p <= k <= i)%nat /\ (lo kl j + d <= hi kl k)%R.
Proof.
  intros HM Hi. destruct (HM i Hi) as (a & b & x & y & Ia & Ib & Ea & Eb & Hd).
  apply In_window_nth with (d := blank (N := XR) 0) in Ia as (j & J1 & J2 & <-); [|lia]. apply In_window_nth with (d := blank (N := XR) 0) in Ib as (k & K1 & K2 & <-); [|lia].
  exists j, k. unfold lo, hi, cn. rewrite Ea, Eb. cbn [val]. repeat split; try lia. exact Hd.
Qed.

(** ** KDJ *)
Theorem C98_Kdj (p : nat) (c : R) (kl : kline) : (2 <= p)%nat -> real_candles kl -> moves_by (1 / 1000000) p (p - 1) kl ->
  exists r r', rows_of I_Kdj (Z.of_nat p) kl = Ok r /\ rows_of I_Kdj (Z.of_nat p) (map (mirrored c) kl) = Ok r' /\ length r = length kl /\
    column (fun v => kK v) r' = map (fun x => (Fin 100 : @F XR) -~ x) (column (fun v => kK v) r) /\
    column (fun v => kD v) r' = map (fun x => (Fin 100 : @F XR) -~ x) (column (fun v => kD v) r) /\
    column (fun v => kJ v) r' = map (fun x => (Fin 100 : @F XR) -~ x) (column (fun v => kJ v) r) /\
    skipn (p - 1) (column (fun v => kRSV v) r') = map (fun x => (Fin 100 : @F XR) -~ x) (skipn (p - 1) (column (fun v => kRSV v) r)).
Proof.
  intros Hp Hr HM. eexists _, _. split; [now apply Kdj_T|]. split; [now apply Kdj_T|]. split; [apply tab_length|].
  set (kl' := map (mirrored c) kl).
  assert (R : forall j, (j < length kl)%nat -> (p - 1 <= j)%nat -> nrel 100 (rsvF p (L kl) (H kl) (C kl) j) (rsvF p (L kl') (H kl') (C kl') j)).
  { intros j Hj Hp'. unfold rsvF. cbn zeta. pose proof (low_turn (mir_low c Hr) (j - (p - 1)) (p - 1) ltac:(lia)) as ML. pose proof (high_turn (mir_high c Hr) (j - (p - 1)) (p - 1) ltac:(lia)) as MH. fold kl' in ML, MH.
    destruct (@low_least (L kl) (lo kl) (length kl) (fun j => @lo_is kl j Hr) (j - (p - 1)) (p - 1) ltac:(lia)) as (a & Ea & La). destruct (@high_greatest (H kl) (hi kl) (length kl) (fun j => @hi_is kl j Hr) (j - (p - 1)) (p - 1) ltac:(lia)) as (b & Eb & Gb).
    destruct (moves_at HM (i := j) ltac:(lia)) as (x & y & Hx & Hy & Hd). specialize (La x ltac:(lia)). specialize (Gb y ltac:(lia)).
    destruct ML as (b' & EL & ->), MH as (a' & EH & ->). rewrite Eb in EL. injection EL as <-. rewrite Ea in EH. injection EH as <-. rewrite Ea, Eb.
    destruct (mir_close c Hr Hj) as (z & Ez & Ez'). fold kl' in Ez'. cbn beta in Ez, Ez'. rewrite Ez, Ez'. cbn.
    replace (c - a + - (c - b))%R with (b + - a)%R by lra. destruct (Rltb_spec (b + - a) (1 / 1000000)); [lra|]. destruct (Reqb_spec (b + - a) 0); [lra|].
    eexists. split; [reflexivity|]. cbn [xmul]. f_equal. field. assumption. }
  assert (K : forall j, (j < length kl)%nat -> exists rv rv' k d, kdjF p (L kl) (H kl) (C kl) j = (rv, Fin k, Fin d) /\ kdjF p (L kl') (H kl') (C kl') j = (rv', Fin (100 - k), Fin (100 - d)) /\
     ((p - 1 <= j)%nat -> nrel 100 rv rv')).
  { induction j as [|j IH]; intros Hj; cbn [kdjF].
    - exists (Fin 0), (Fin 0), 50%R, 50%R. split; [reflexivity|]. split; [|intros; lia]. cbn. do 2 f_equal; f_equal; lra.
    - destruct (Nat.ltb_spec (S j) (p - 1)).
      + exists (Fin 0), (Fin 0), 50%R, 50%R. split; [reflexivity|]. split; [|intros; lia]. cbn. do 2 f_equal; f_equal; lra.
      + destruct (IH ltac:(lia)) as (u & u' & k & d & -> & -> & _). destruct (R (S j) Hj ltac:(lia)) as (v & E1 & E2). rewrite E1, E2. exists (Fin v), (Fin (100 - v)).
        exists (2 / 3 * k + 1 / 3 * v)%R, (2 / 3 * d + 1 / 3 * (2 / 3 * k + 1 / 3 * v))%R. split; [reflexivity|]. split; [apply (f_equal2 pair); [apply (f_equal2 pair); [reflexivity|]|]; apply (f_equal Fin); lra|]. intros _. exists v. now split. }
  assert (G : forall i, (i < length kl)%nat -> kK (kdjG p kl' i) = flip 100 (kK (kdjG p kl i)) /\ kD (kdjG p kl' i) = flip 100 (kD (kdjG p kl i)) /\ kJ (kdjG p kl' i) = flip 100 (kJ (kdjG p kl i)) /\
     ((p - 1 <= i)%nat -> kRSV (kdjG p kl' i) = flip 100 (kRSV (kdjG p kl i)))).
  { intros i Hi. unfold kdjG. destruct (K i Hi) as (u & u' & k & d & -> & -> & Q). cbn [kK kD kJ kRSV]. split; [reflexivity|]. split; [reflexivity|]. split; [|intros Hpi; now apply nrel_flip, Q].
    unfold kdj_j, flip. cbn. f_equal. lra. }
  unfold column. rewrite !tabmap. replace (length kl') with (length kl) by (symmetry; apply map_length). cbn [rVal].
  split; [apply tab_ext; intros i Hi; now apply G|]. split; [apply tab_ext; intros i Hi; now apply G|]. split; [apply tab_ext; intros i Hi; now apply G|].
  rewrite <- !(skipn_map (fun x => (Fin 100 : @F XR) -~ x)), tabmap. apply list_ext. intros i. rewrite !nth_error_skipn.
  destruct (Nat.lt_ge_cases (p - 1 + i) (length kl)) as [Hi|Hi]; [|now rewrite !(proj2 (nth_error_None _ _)) by (rewrite tab_length; lia)].
  rewrite !nth_error_tab by exact Hi. f_equal. apply G; lia.
Qed.

(** ** Williams %R: -100 - x; stochastic oscillator: 100 - x *)
Theorem C98_Williams p : 1 <= p -> mirrors I_Williams p (fun v => v) (fun v => v) (fun _ => (-100)%R) 1.
Proof.
  intros Hp. apply mirrors_T with (P := fun (kl : kline) g => exists u l, tops (fun k => cHigh k) p kl u /\ bottoms (fun k => cLow k) p kl l /\ g = wilF (C kl) u l).
  { intros kl Hr _. destruct (@Williams_T XR XR_ord p kl Hp (real_no_nan _ bar_high Hr) (real_no_nan _ bar_low Hr)) as (u & l & Hu & Hl & E). eexists. split; [exact E|]. exists u, l. auto. }
  intros c kl g g' Hr (u & l & U & D & ->) (u' & l' & U' & D' & ->) i Hi. unfold wilF.
  destruct (@top_turn (fun k => cLow k) (fun k => cHigh k) p c kl l u' bar_low (fun k => eq_refl) Hr D U' i ltac:(lia)) as (a & -> & ->).
  destruct (@bottom_turn (fun k => cHigh k) (fun k => cLow k) p c kl u l' bar_high (fun k => eq_refl) Hr U D' i ltac:(lia)) as (b & -> & ->).
  destruct (mir_close c Hr (j := i) ltac:(lia)) as (z & -> & ->). cbn. replace (c - a + - (c - b))%R with (b + - a)%R by lra.
  destruct (Reqb_spec (b + - a) 0) as [E|E]; [|cbn; f_equal; field; assumption].
  replace (c - a + - (c - z))%R with (- (b + - z))%R by lra. rewrite neg_inf. unfold inf_sgn at 1 2. destruct (Rltb_spec 0 (b + - z)), (Rltb_spec (b + - z) 0); cbn; try lra; try reflexivity;
  unfold inf_sgn; destruct (Rltb_spec 0 (-100)), (Rltb_spec (-100) 0); try lra; cbn; rewrite ?Ropp_involutive;
  try (destruct (Rltb_spec 0 (- -100)); [reflexivity|lra]); try (destruct (Rltb_spec 0 100); [reflexivity|lra]); reflexivity.
Qed.
Theorem C98_Stochastic (p : Z) (d c : R) (kl : kline) : 1 <= p -> real_candles kl -> (0 < d)%R -> moves_by d (Z.to_nat p) 0 kl ->
  exists r r', rows_of I_Stoch p kl = Ok r /\ rows_of I_Stoch p (map (mirrored c) kl) = Ok r' /\ length r = length kl /\
    column (fun v => kdK v) r' = map (fun x => (Fin 100 : @F XR) -~ x) (column (fun v => kdK v) r) /\
    column (fun v => kdD v) r' = map (fun x => (Fin 100 : @F XR) -~ x) (column (fun v => kdD v) r).
Proof.
  intros Hp Hr Hd HM.
  destruct (@Stoch_T XR XR_ord p kl Hp (real_no_nan _ bar_high Hr) (real_no_nan _ bar_low Hr)) as (u & l & Hu & Hl & E).
  destruct (@Stoch_T XR XR_ord p (map (mirrored c) kl) Hp (real_no_nan _ bar_high (mir_real c Hr)) (real_no_nan _ bar_low (mir_real c Hr))) as (u' & l' & Hu' & Hl' & E').
  eexists _, _. split; [exact E|]. split; [exact E'|]. split; [apply tab_length|].
  assert (K : turned 100 (length kl) (stoK (C kl) u l) (stoK (C (map (mirrored c) kl)) u' l')).
  { intros j Hj. unfold stoK.
    assert (W : forall q : Candle (N := XR) -> @F XR, (forall k b, is_bar k b -> exists r, q k = Fin r) -> window (map q kl) j (Z.to_nat p) = fins (window (nums q kl) j (Z.to_nat p))) by (intros q Hq; rewrite (nums_fins q Hr Hq); unfold fins; now rewrite window_map).
    pose proof (Hu j Hj) as T. rewrite (W (fun k => cHigh k) bar_high) in T. apply max_of_exact in T as (b & Eb & _ & Gb). pose proof (Hl j Hj) as B. rewrite (W (fun k => cLow k) bar_low) in B. apply min_of_exact in B as (a & Ea & _ & La).
    destruct (HM j ltac:(lia)) as (k1 & k2 & x & y & I1 & I2 & E1 & E2 & Hxy).
    assert (a <= x)%R. { apply La. unfold nums. rewrite window_map. apply in_map_iff. exists k1. now rewrite E1. }
    assert (y <= b)%R. { apply Gb. unfold nums. rewrite window_map. apply in_map_iff. exists k2. now rewrite E2. }
    destruct (@top_turn (fun k => cLow k) (fun k => cHigh k) p c kl l u' bar_low (fun k => eq_refl) Hr Hl Hu' j Hj) as (a' & Q1 & Q2). rewrite Ea in Q1. injection Q1 as <-.
    destruct (@bottom_turn (fun k => cHigh k) (fun k => cLow k) p c kl u l' bar_high (fun k => eq_refl) Hr Hu Hl' j Hj) as (b' & Q3 & Q4). rewrite Eb in Q3. injection Q3 as <-.
    destruct (mir_close c Hr Hj) as (z & Ez & Ez'). cbn beta in Ez, Ez'. rewrite Ea, Eb, Q2, Q4, Ez, Ez'.
    change ((Fin z : @F XR) +~ (Fin a : @F XR) *~ ofZ (-1)) with (Fin (z + a * -1) : @F XR). change ((Fin b : @F XR) +~ (Fin a : @F XR) *~ ofZ (-1)) with (Fin (b + a * -1) : @F XR).
    change ((Fin (c - z) : @F XR) +~ (Fin (c - b) : @F XR) *~ ofZ (-1)) with (Fin (c - z + (c - b) * -1) : @F XR). change ((Fin (c - a) : @F XR) +~ (Fin (c - b) : @F XR) *~ ofZ (-1)) with (Fin (c - a + (c - b) * -1) : @F XR).
    rewrite !PropInd8.div_clean_exact, !SpecBar.ratio_nz by lra. eexists. split; [reflexivity|]. cbn. f_equal. field. lra. }
  unfold column. rewrite !tabmap, map_length. cbn [rVal kdK kdD]. split; apply tab_ext; intros i Hi; apply nrel_flip; [now apply K|]. apply (@turned_sma 3 100 (length kl)); auto.
Qed.

(** ** Vortex and ADX: the rising and the falling line change places *)
Lemma fabs_sub (x y : @F XR) : fabs (x -~ y) = fabs (y -~ x).
Proof. destruct x as [a| | |], y as [b| | |]; cbn; auto. f_equal. rewrite <- Rabs_Ropp. f_equal. lra. Qed.
Lemma tr3_turn c kl : real_candles kl -> forall j, (j < length kl)%nat -> tr3F (map (mirrored c) kl) j = tr3F kl j.
Proof.
  intros Hr [|j] Hj; [reflexivity|]. unfold tr3F. assert (Hj' : (j < length kl)%nat) by lia.
  rewrite (sub_turn (mir_high c Hr Hj) (mir_low c Hr Hj)), (sub_turn (mir_high c Hr Hj) (mir_close c Hr Hj')), (sub_turn (mir_low c Hr Hj) (mir_close c Hr Hj')). cbn beta.
  rewrite (fabs_sub (cClose (cn kl j)) (cLow (cn kl (S j)))), (fabs_sub (cClose (cn kl j)) (cHigh (cn kl (S j)))). f_equal.
  destruct (mir_high c Hr Hj) as (x & -> & _), (mir_low c Hr Hj) as (y & -> & _), (mir_close c Hr Hj') as (z & -> & _).
  change (fmax (N := XR) (Fin (Rabs (x - z))) (Fin (Rabs (y - z))) = fmax (N := XR) (Fin (Rabs (y - z))) (Fin (Rabs (x - z)))). now rewrite !xr_max, Rmax_comm.
Qed.
Theorem C98_Vortex p : 1 <= p -> trades_places I_Vortex p (fun v => vPlus v) (fun v => vMinus v) /\ trades_places I_Vortex p (fun v => vMinus v) (fun v => vPlus v).
Proof.
  intros Hp.
  assert (P : forall c kl, real_candles kl -> forall j, (j < length kl)%nat -> vPF (map (mirrored c) kl) j = vMF kl j).
  { intros c kl Hr [|j] Hj; [reflexivity|]. unfold vPF, vMF. assert (Hj' : (j < length kl)%nat) by lia. rewrite (sub_turn (mir_high c Hr Hj) (mir_low c Hr Hj')). apply fabs_sub. }
  assert (M : forall c kl, real_candles kl -> forall j, (j < length kl)%nat -> vMF (map (mirrored c) kl) j = vPF kl j).
  { intros c kl Hr [|j] Hj; [reflexivity|]. unfold vMF, vPF. assert (Hj' : (j < length kl)%nat) by lia. rewrite (sub_turn (mir_low c Hr Hj) (mir_high c Hr Hj')). apply fabs_sub. }
  split; (eapply trades_F; [intros kl; now apply Vortex_T|]; intros c kl i Hr Hi; destruct i as [|i]; [reflexivity|]; unfold vortexF; cbn [vPlus vMinus]).
  - now rewrite (ringS_same (Z.to_nat p) (M c kl Hr) Hi), (ringS_same (Z.to_nat p) (tr3_turn c Hr) Hi).
  - now rewrite (ringS_same (Z.to_nat p) (P c kl Hr) Hi), (ringS_same (Z.to_nat p) (tr3_turn c Hr) Hi).
Qed.
Lemma add_comm (x y : @F XR) : x +~ y = y +~ x.
Proof. destruct x, y; cbn; auto. f_equal. lra. Qed.
Theorem C98_ADX p : 1 <= axPeriod p -> 0 <= axLen p -> trades_places I_ADX p (fun v => axPlus v) (fun v => axMinus v) /\ trades_places I_ADX p (fun v => axMinus v) (fun v => axPlus v) /\
  trades_places I_ADX p (fun v => axADX v) (fun v => axADX v).
Proof.
  intros H1 H2.
  assert (M : forall c kl, real_candles kl -> forall j, (j < length kl)%nat -> dmF (map (mirrored c) kl) j = (snd (dmF kl j), fst (dmF kl j))).
  { intros c kl Hr [|j] Hj; [reflexivity|]. unfold dmF, calculateDM. assert (Hj' : (j < length kl)%nat) by lia. cbn zeta. cbn [fst snd].
    now rewrite (sub_turn (mir_high c Hr Hj) (mir_high c Hr Hj')), (sub_turn (mir_low c Hr Hj') (mir_low c Hr Hj)). }
  assert (D : forall c kl, real_candles kl -> forall j, (j < length kl)%nat -> diF (axPeriod p) (axLen p) (map (mirrored c) kl) j =
     (snd (fst (diF (axPeriod p) (axLen p) kl j)), fst (fst (diF (axPeriod p) (axLen p) kl j)), snd (diF (axPeriod p) (axLen p) kl j))).
  { intros c kl Hr j Hj. unfold diF. destruct (_ <? _)%nat; [reflexivity|].
    assert (E1 : forall k, (k < length kl)%nat -> fst (dmF (map (mirrored c) kl) k) = snd (dmF kl k)) by (intros k Hk; now rewrite (M c kl Hr k Hk)).
    assert (E2 : forall k, (k < length kl)%nat -> snd (dmF (map (mirrored c) kl) k) = fst (dmF kl k)) by (intros k Hk; now rewrite (M c kl Hr k Hk)).
    rewrite (smoothF_same (axLen p) (f := fun i => snd (dmF kl i)) (g := fun i => fst (dmF (map (mirrored c) kl) i)) E1 Hj), (smoothF_same (axLen p) (f := fun i => fst (dmF kl i)) (g := fun i => snd (dmF (map (mirrored c) kl) i)) E2 Hj), (smoothF_same (axLen p) (tr3_turn c Hr) Hj).
    unfold adx_di. cbn zeta. cbn [fst snd]. do 2 f_equal. rewrite add_comm. f_equal. apply fabs_sub. }
  repeat apply conj; (eapply trades_F; [intros kl; now apply ADX_T|]; intros c kl i Hr Hi; unfold adxF; cbn [axPlus axMinus axADX]); try (now rewrite (D c kl Hr i Hi)).
  apply smaF_same with (n := length kl); auto. intros j Hj. now rewrite (D c kl Hr j Hj).
Qed.

(** ** CCI: - x *)
Theorem C98_Cci (p : nat) : (1 <= p)%nat -> mirrors I_Cci (mkCciP (Z.of_nat p) (Z.of_nat p)) (fun v => v) (fun v => v) negated 1 /\ mirrors I_AiCoinCCI (Z.of_nat p) (fun v => v) (fun v => v) negated 1.
Proof.
  intros Hp.
  assert (TP : forall k b, is_bar k b -> exists r, typical_price k = Fin r) by (intros k b Hb; unfold typical_price; change (isR ((cHigh k +~ cLow k +~ cClose k) /~ ofZ 3)); isR_tac).
  assert (TL : forall c k b, is_bar k b -> typical_price (mirrored c k) = (Fin c : @F XR) -~ typical_price k).
  { intros c k b (_ & Eh & El & Ec & _). unfold typical_price, mirrored. cbn [cHigh cLow cClose]. rewrite Eh, El, Ec. assert (D3 : forall a, (Fin a : @F XR) /~ ofZ 3 = (Fin (a / 3) : @F XR)) by (intros a; cbn; destruct (Reqb_spec 3 0); [lra|reflexivity]).
    change ((Fin (c - bL b + (c - bH b) + (c - bC b)) : @F XR) /~ ofZ 3 = (Fin c : @F XR) -~ (Fin (bH b + bL b + bC b) : @F XR) /~ ofZ 3). rewrite !D3. cbn. f_equal. field. }
  assert (IX : forall c flat (xs : list R) n i, length xs = n -> (i < n)%nat -> flip 0 flat = flat ->
    (if (S i <? p)%nat then Fin 0 else let w := window (map (fun x => c - x)%R xs) i p in if Reqb (mad w) 0 then flat else Fin ((nth i (map (fun x => c - x)%R xs) 0 - mean w) / (15 / 1000 * mad w))%R) =
    flip 0 (if (S i <? p)%nat then Fin 0 else let w := window xs i p in if Reqb (mad w) 0 then flat else Fin ((nth i xs 0 - mean w) / (15 / 1000 * mad w))%R)).
  { intros c flat xs n i <- Hi Hf. destruct (_ <? _)%nat; [unfold flip; cbn; f_equal; lra|]. cbn zeta. rewrite window_map, mad_turn, mean_turn by (now apply win_ne). destruct (Reqb_spec (mad (window xs i p)) 0); [now rewrite Hf|].
    rewrite nth_indep with (d' := (c - 0)%R) by (now rewrite map_length). rewrite (map_nth (fun x => c - x)%R). unfold flip. cbn. f_equal. field. assumption. }
  split; intros c kl Hr _; pose proof (nums_fins typical_price Hr TP) as T0; pose proof (nums_fins (fun k => cClose k) Hr bar_close) as C0;
    pose proof (nums_fins typical_price (mir_real c Hr) TP) as T1; pose proof (nums_fins (fun k => cClose k) (mir_real c Hr) bar_close) as C1;
    rewrite (@nums_turn c typical_price typical_price kl TP (TL c) Hr) in T1; rewrite (@nums_turn c (fun k => cClose k) (fun k => cClose k) kl bar_close (fun k b _ => eq_refl) Hr) in C1;
    destruct (@C79_exact p kl _ _ Hp T0 C0) as [E1 E2]; destruct (@C79_exact p (map (mirrored c) kl) _ _ Hp T1 C1) as [F1 F2].
  - destruct (rows_of I_Cci _ kl) as [r|]; [|discriminate]. destruct (rows_of I_Cci _ (map (mirrored c) kl)) as [r'|]; [|discriminate]. cbn [rmap] in E1, F1. injection E1 as E1. injection F1 as F1.
    exists r, r'. split; [reflexivity|]. split; [reflexivity|]. split; [apply (f_equal (@length _)) in E1; unfold column in E1; now rewrite map_length, tab_length in E1|]. cbn [Nat.sub skipn].
    refine (eq_trans F1 (eq_trans _ (f_equal (map (flip 0)) (eq_sym E1)))). rewrite map_length, tabmap. apply tab_ext. intros i Hi. apply (IX c NaN _ (length kl)); [unfold nums; apply map_length|exact Hi|reflexivity].
  - destruct (rows_of I_AiCoinCCI _ kl) as [r|]; [|discriminate]. destruct (rows_of I_AiCoinCCI _ (map (mirrored c) kl)) as [r'|]; [|discriminate]. cbn [rmap] in E2, F2. injection E2 as E2. injection F2 as F2.
    exists r, r'. split; [reflexivity|]. split; [reflexivity|]. split; [apply (f_equal (@length _)) in E2; unfold column in E2; now rewrite map_length, tab_length in E2|]. cbn [Nat.sub skipn].
    refine (eq_trans F2 (eq_trans _ (f_equal (map (flip 0)) (eq_sym E2)))). rewrite map_length, tabmap. apply tab_ext. intros i Hi. apply (IX c (Fin 0) _ (length kl)); [unfold nums; apply map_length|exact Hi|unfold flip; cbn; f_equal; lra].
Qed.
Print Assumptions C98_Vwma.
Print Assumptions C98_Rsi.
Print Assumptions C98_Kdj.
Print Assumptions C98_Williams.
Print Assumptions C98_Stochastic.
Print Assumptions C98_Vortex.
Print Assumptions C98_ADX.
Print Assumptions C98_Cci.
