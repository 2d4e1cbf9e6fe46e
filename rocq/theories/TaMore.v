(** * TaMore: lemmas combining the facts of the previous files for the property theorems. *)
From Verif Require Import Base Num B64 XReal Order Ta TaTools TaElem SpecTa RSum TaAvg TaStat TaDev
  TaReg TaOrd TaRange TaCci TaCausal.
Set Implicit Arguments.

Lemma TRange_float (L : MathLib) (hs ls cs : list (@F (B64 L))) :
  (length cs <= length hs)%nat -> (length cs <= length ls)%nat ->
  exists r, TRange hs ls cs = Ok r /\ TrueRange hs ls cs = Ok r /\ length r = length cs /\
    (cs <> [] -> nth 0 r fzero = fzero) /\
    forall i, (S i < length cs)%nat ->
      let h := nth (S i) hs fzero in let l := nth (S i) ls fzero in let pc := nth i cs fzero in
      let cands := [h -~ l; fabs (pc -~ h); fabs (pc -~ l)] in
      no_nan cands -> max_of (nth (S i) r fzero) cands.
Proof.
  intros H1 H2. eexists. split; [apply TRange_gen; assumption|]. split; [rewrite TrueRange_same; apply TRange_gen; assumption|].
  split; [apply tab_length|]. split.
  - intros Hn. rewrite tab_nth; [reflexivity|]. destruct cs; [congruence|cbn; lia].
  - intros i Hi h l pc cands Hc. rewrite tab_nth by exact Hi. cbn [tr_at].
    inversion_clear Hc as [|? ? A1 Hc']. inversion_clear Hc' as [|? ? A2 Hc'']. inversion_clear Hc'' as [|? ? A3 _].
    apply (tr1_max (B64_ord L)); assumption.
Qed.

Lemma TRange_exact' (hs ls cs : list R) :
  (length cs <= length hs)%nat -> (length cs <= length ls)%nat ->
  TRange (N := XR) (fins hs) (fins ls) (fins cs) =
  Ok (tab (length cs) (fun i => match i with
        | O => Fin 0
        | S j => Fin (true_range (nth i hs 0) (nth i ls 0) (nth j cs 0))%R end)).
Proof.
  intros H1 H2. rewrite TRange_exact by assumption. apply f_equal, tab_ext. intros [|i] Hi; reflexivity.
Qed.

Lemma Atr_nonneg (hs ls cs : list R) (p : Z) :
  (length cs <= length hs)%nat -> (length cs <= length ls)%nat -> p < 2 \/ p < len cs ->
  exists r, Atr (N := XR) (fins hs) (fins ls) (fins cs) p = Ok r /\ length r = length cs /\
    Forall (fun v => exists x, v = Fin x /\ (0 <= x)%R) r.
Proof.
  intros H1 H2 Hp. destruct (Z.lt_ge_cases p 1) as [Hp1|Hp1].
  { rewrite Atr_low by exact Hp1. eexists. split; [reflexivity|]. rewrite repeat_length, fins_length. split; [reflexivity|].
    apply Forall_forall. intros v Hv. apply repeat_spec in Hv. subst. exists 0%R. split; [reflexivity|lra]. }
  destruct (Z.eq_dec p 1) as [->|Hne].
  { rewrite Atr_one, TRange_exact by assumption. eexists. split; [reflexivity|]. rewrite tab_length. split; [reflexivity|].
    apply Forall_forall. intros v Hv. unfold tab in Hv. apply in_map_iff in Hv as (i & <- & _).
    eexists. split; [reflexivity|]. apply tr_real_nonneg. }
  rewrite <- (Z2Nat.id p) by lia. rewrite Atr_exact; try assumption; [|lia|unfold len in Hp; lia].
  eexists. split; [reflexivity|]. rewrite tab_length. split; [reflexivity|].
  apply Forall_forall. intros v Hv. unfold tab in Hv. apply in_map_iff in Hv as (i & <- & _).
  destruct (i <? Z.to_nat p)%nat.
  - exists 0%R. split; [reflexivity|lra].
  - eexists. split; [reflexivity|]. apply wilder_nonneg; [lia|]. intros; apply tr_real_nonneg.
Qed.

Lemma Atr_wilder (hs ls cs : list R) (p : nat) : (2 <= p)%nat -> (p < length cs)%nat ->
  (length cs <= length hs)%nat -> (length cs <= length ls)%nat ->
  let tr i := match i with O => 0 | S j => true_range (nth i hs 0) (nth i ls 0) (nth j cs 0) end%R in
  exists a : nat -> R,
    Atr (N := XR) (fins hs) (fins ls) (fins cs) (Z.of_nat p) =
      Ok (tab (length cs) (fun i => if (i <? p)%nat then Fin 0 else Fin (a i))) /\
    a p = (((Rsum (tab (p - 1) (fun j => tr (S j))) / INR p) * (INR p - 1) + tr p) / INR p)%R /\
    forall i, (p <= i)%nat -> a (S i) = ((a i * (INR p - 1) + tr (S i)) / INR p)%R.
Proof.
  intros H1 H2 H3 H4 tr. exists (fun i => wilder p (tr_real hs ls cs) (i - p)).
  split; [exact (Atr_exact hs ls cs H1 H2 H3 H4)|].
  assert (Et : forall i, tr_real hs ls cs i = tr i) by (intros [|i]; reflexivity).
  split.
  - rewrite Nat.sub_diag. cbn [wilder]. rewrite Rsum_tab, Et.
    rewrite (@sumf_ext (fun j => tr_real hs ls cs (S j)) (fun j => tr (S j)) (p - 1)); [reflexivity|].
    intros k _. apply Et.
  - intros i Hi. replace (S i - p)%nat with (S (i - p)) by lia. cbn [wilder]. rewrite Et.
    replace (p + S (i - p))%nat with (S i) by lia. reflexivity.
Qed.

Lemma MA_Dev_shape {N : Num} (p : Z) (xs : list F) :
  (exists r, MA xs p = Ok r /\ length r = length xs) /\ (exists r, Dev xs p = Ok r /\ length r = length xs) /\
  (p <= 0 \/ len xs < p -> MA xs p = Ok (repeat fzero (length xs)) /\ Dev xs p = Ok (repeat fzero (length xs))).
Proof.
  split; [apply MA_total|]. split; [apply Dev_total|]. intros H. unfold MA, Dev. rewrite make_len; cbn [bind].
  replace ((p <=? 0) || (len xs <? p)) with true; [split; reflexivity|].
  symmetry. apply orb_true_iff. lia.
Qed.

Lemma CCI_formula {N : Num} (p q : nat) (xs : list F) : (1 <= p)%nat ->
  exists ma md, Sma (Z.of_nat q) xs = Ok ma /\ MeanDeviation xs (Z.of_nat p) ma = Ok md /\
    length ma = length xs /\ length md = length xs /\
    CCI xs (Z.of_nat p) (Z.of_nat q) =
    Ok (tab (length xs) (fun i => if (S i <? p)%nat then fzero else
          (nth i xs fzero -~ nth i ma fzero) /~ (lit 15 1000 *~ nth i md fzero))).
Proof.
  intros Hp. do 2 eexists. split; [apply Sma_gen|]. split; [apply MeanDeviation_gen; [exact Hp|rewrite tab_length; lia]|].
  rewrite !tab_length. split; [reflexivity|]. split; [reflexivity|].
  rewrite CCI_gen by exact Hp. apply f_equal, tab_ext. intros i Hi. rewrite !tab_nth by exact Hi.
  unfold warm. destruct (S i <? p)%nat; reflexivity.
Qed.

Lemma one_slice {N : Num} (xs : list F) (m : F) (d : Z) :
  MultiplyBy xs m = Ok (map (fun v => v *~ m) xs) /\
  DivideBy xs m = Ok (map (fun v => v *~ (ofZ 1 /~ m)) xs) /\
  AddBy xs m = Ok (map (fun v => v +~ m) xs) /\
  Pow xs m = Ok (map (fun v => fpow v m) xs) /\
  Abs xs = Ok (map fabs xs) /\ Sqrt xs = Ok (map fsqrt xs) /\
  ExtractSign xs = Ok (map (fun v => if ofZ 0 <=~ v then ofZ 1 else ofZ (-1)) xs) /\
  KeepPositives xs = Ok (map (fun v => if ofZ 0 <~ v then v else ofZ 0) xs) /\
  KeepNegatives xs = Ok (map (fun v => if v <~ ofZ 0 then v else ofZ 0) xs) /\
  RoundDigitsAll xs d = Ok (map (fun v => fround (v *~ fpow (ofZ 10) (ofZ d)) /~ fpow (ofZ 10) (ofZ d)) xs) /\
  Nzs xs m = Ok (map (fun v => if isNaN v then m else v) xs).
Proof. repeat (split; [apply map1_ok|]). apply Nzs_ok. Qed.

Lemma two_slices {N : Num} (xs ys r : list F) :
  (Add xs ys = Ok r <-> (length xs <= length ys)%nat /\ r = zipWith fadd xs ys) /\
  (Multiply xs ys = Ok r <-> (length xs <= length ys)%nat /\ r = zipWith fmul xs ys) /\
  (Subtract xs ys = Ok r <-> (length xs <= length ys)%nat /\ r = zipWith (fun a b => a +~ b *~ ofZ (-1)) xs ys) /\
  (Divide xs ys = Ok r <-> (length xs <= length ys)%nat /\
     r = zipWith (fun a b => if isNaN (a /~ b) || isInf (a /~ b) then fzero else a /~ b) xs ys).
Proof.
  split; [apply map2_ok_iff|]. split; [apply map2_ok_iff|]. split; [|apply map2_ok_iff].
  destruct (Nat.le_gt_cases (length xs) (length ys)) as [H|H].
  - rewrite Subtract_ok by exact H. split; [intros E; injection E as <-; auto|intros [_ ->]; reflexivity].
  - rewrite Subtract_panic by exact H. split; [discriminate|lia].
Qed.

Lemma Subtract_exact (xs ys : list R) : (length xs <= length ys)%nat ->
  Subtract (N := XR) (fins xs) (fins ys) = Ok (tab (length xs) (fun i => Fin (nth i xs 0 - nth i ys 0)%R)).
Proof.
  intros H. rewrite Subtract_ok by (rewrite !fins_length; exact H). apply f_equal.
  rewrite zipWith_tab with (d := @fzero XR) by (rewrite !fins_length; exact H). rewrite fins_length.
  apply tab_ext. intros i Hi. rewrite !fins_nth0. cbn. f_equal. ring.
Qed.

Lemma Shift_all {N : Num} (p : Z) (fill : F) (xs : list F) :
  (0 <= p -> ShiftRightAndFillBy p fill xs =
     Ok (tab (length xs) (fun i => if (i <? Z.to_nat p)%nat then fill else nth (i - Z.to_nat p) xs fzero))) /\
  ShiftRight p xs = ShiftRightAndFillBy p (ofZ 0) xs /\
  (ShiftRightAndFillBy p fill xs = Panic <-> p < 0 /\ xs <> []).
Proof.
  split; [apply Shift_ok|]. split; [reflexivity|].
  destruct (Z.le_gt_cases 0 p) as [Hp|Hp]; [rewrite Shift_ok by exact Hp; split; [discriminate|lia]|].
  destruct xs as [|x xs]; [rewrite Shift_nil; split; [discriminate|intros [_ []]; reflexivity]|].
  rewrite Shift_neg by (lia || discriminate). split; [intros _; split; [lia|discriminate]|reflexivity].
Qed.

Lemma Diff_exact (b : nat) (xs : list R) :
  Diff (N := XR) (fins xs) (Z.of_nat b) =
  Ok (tab (length xs) (fun i => Fin (if (i <? b)%nat then nth i xs 0 else nth i xs 0 - nth (i - b) xs 0)%R)).
Proof.
  rewrite Diff_ok by lia. rewrite fins_length. apply f_equal, tab_ext. intros i Hi. unfold shifted.
  rewrite Nat2Z.id, !fins_nth0. destruct (i <? b)%nat; cbn; f_equal; ring.
Qed.

Lemma Cross_never_both (L : MathLib) (xs : list (@F (B64 L))) (s : @F (B64 L)) :
  ~ (CrossOver xs s = Ok true /\ CrossUnder xs s = Ok true).
Proof.
  intros [H1 H2]. destruct xs as [|x [|y xs]].
  - discriminate.
  - rewrite (proj1 (Cross_one x s)) in H1. destruct (s <~ x); discriminate.
  - rewrite CrossOver_spec in H1 by (cbn; lia). rewrite CrossUnder_spec in H2 by (cbn; lia).
    set (c := nth _ _ _) in *. injection H1 as H1. injection H2 as H2.
    apply andb_true_iff in H1 as [H1 _]. apply andb_true_iff in H2 as [H2 _].
    pose proof (B64_ord L) as O. destruct (@lt_nn _ O _ _ H1) as [Hs Hc].
    assert (H3 : (c <~ s) = true) by exact H2.
    rewrite (@ol_asym _ O _ _ Hs Hc H1) in H3. discriminate.
Qed.

Lemma one_series_causal {N : Num} (p q l r : Z) (c : F) (out : F -> F) :
  causal (Sma p) /\ causal (Ema p) /\ causal (Dema p) /\ causal (Rma p) /\ causal (Sum p) /\
  causal (Max p) /\ causal (Min p) /\ causal (fun xs => MA xs p) /\ causal (fun xs => Dev xs p) /\
  causal (Wma p) /\ causal (fun xs => Variance xs p) /\ causal (fun xs => StdDev xs p c) /\
  causal (fun xs => LinearReg xs p) /\ causal (fun xs => LinearRegSlope xs p) /\
  causal (fun xs => LinearRegIntercept xs p) /\ causal (fun xs => LinearRegAngle xs p) /\
  causal (ShiftRightAndFillBy p c) /\ causal (fun xs => Diff xs p) /\ causal (fun xs => PercentDiff xs p) /\
  causal (fun xs => PivotHigh xs l r) /\ causal (fun xs => PivotLow xs l r) /\
  causal (fun xs => CCI xs p q) /\ causal (fun xs => AiCoinCCI xs p c) /\ causal (map1 out).
Proof.
  repeat apply conj; apply causal_iff; intros xs xs' H; eauto using Sma_prefix, Ema_prefix, Dema_prefix, Rma_prefix,
    Sum_prefix, MA_prefix, Dev_prefix, Wma_prefix, Variance_prefix, StdDev_prefix,
    Shift_prefix, Diff_prefix, PercentDiff_prefix, CCI_prefix, AiCoinCCI_prefix, map1_prefix;
  first [now apply moving_prefix|now apply lr_prefix|now apply pivots_prefix].
Qed.

Lemma several_series_causal {N : Num} (p : Z) (hs hs' ls ls' cs cs' : list F) :
  prefix hs hs' -> prefix ls ls' -> prefix cs cs' ->
  (forall r r', TRange hs ls cs = Ok r -> TRange hs' ls' cs' = Ok r' -> prefix r r') /\
  (forall r r', Atr hs ls cs p = Ok r -> Atr hs' ls' cs' p = Ok r' -> prefix r r') /\
  (forall r r', Natr hs ls cs p = Ok r -> Natr hs' ls' cs' p = Ok r' -> prefix r r') /\
  (forall k d k' d', Stochastic cs hs ls p = Ok (k, d) -> Stochastic cs' hs' ls' p = Ok (k', d') ->
     prefix k k' /\ prefix d d') /\
  (forall r r', Add hs ls = Ok r -> Add hs' ls' = Ok r' -> prefix r r') /\
  (forall r r', Subtract hs ls = Ok r -> Subtract hs' ls' = Ok r' -> prefix r r') /\
  (forall r r', Multiply hs ls = Ok r -> Multiply hs' ls' = Ok r' -> prefix r r') /\
  (forall r r', Divide hs ls = Ok r -> Divide hs' ls' = Ok r' -> prefix r r').
Proof.
  intros H1 H2 H3. split; [exact (TRange_prefix H1 H2 H3)|]. split; [exact (Atr_prefix H1 H2 H3 p)|].
  split; [exact (Natr_prefix H1 H2 H3 p)|].
  split; [intros k d k' d' E1 E2; exact (@Stochastic_prefix N p _ _ _ _ _ _ H3 H1 H2 _ _ E1 E2)|].
  split; [exact (map2_prefix H1 H2 fadd)|]. split; [exact (Subtract_prefix H1 H2)|].
  split; [exact (map2_prefix H1 H2 fmul)|exact (map2_prefix H1 H2 div_clean)].
Qed.

Lemma Stochastic_bounds (cs hs ls : list R) (p : nat) :
  (1 <= p)%nat -> length hs = length cs -> length ls = length cs ->
  (forall i, (i < length cs)%nat -> (nth i ls 0 <= nth i cs 0 <= nth i hs 0)%R) ->
  exists k d : nat -> R,
    Stochastic (N := XR) (fins cs) (fins hs) (fins ls) (Z.of_nat p) =
      Ok (tab (length cs) (fun i => Fin (k i)), tab (length cs) (fun i => Fin (d i))) /\
    forall i, (i < length cs)%nat ->
      (0 <= k i <= 100)%R /\ (0 <= d i <= 100)%R /\
      (let hh := rmax (window hs i p) in let ll := rmin (window ls i p) in
       (hh = ll -> k i = 0)%R /\ (hh <> ll -> k i = (nth i cs 0 - ll) / (hh - ll) * 100)%R).
Proof.
  intros Hp Hh Hl Hb. do 2 eexists. split; [apply Stochastic_exact; assumption|].
  assert (Hk : forall i, (i < length cs)%nat -> (0 <= stoch_k hs ls cs p i <= 100)%R).
  { intros i Hi. apply stoch_k_bounds; auto. }
  intros i Hi. split; [now apply Hk|]. split.
  - apply mean_bounds; [apply window_ne; [rewrite tab_length; exact Hi|lia]|].
    intros x Hx. apply window_In in Hx. unfold tab in Hx. apply in_map_iff in Hx as (j & <- & Hj).
    apply in_seq in Hj. apply Hk. lia.
  - cbv zeta. unfold stoch_k. split.
    + intros ->. replace (rmin (window ls i p) - rmin (window ls i p))%R with 0%R by ring. rewrite Reqb_refl. ring.
    + intros Hne. destruct (Reqb_spec (rmax (window hs i p) - rmin (window ls i p)) 0) as [E|E]; [lra|reflexivity].
Qed.
