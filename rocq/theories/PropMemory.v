(** * PropMemory: property C95, how much history a value depends on. *)
From Coq Require Import Reals Lra ZArith Lia Bool List PeanoNat.
From Verif Require Import Base Num XReal Order OrderMore FloatLaws FloatOrder FloatBounds SpecNum B64 Lits Containers Ta TaTools TaAvg TaRange TaStat SpecTa Sides Klines RSum XrMore
  IndBase IndTrend IndChannel IndOsc IndVolume IndTools IndForms IndForms2 IndForms3 IndForms4 IndForms5 IndFormsSpec IndBounds IndBounds2 IndExact TaDev TaReg SpecInd SpecInd2 SpecBar SpecMemory
  PropInd1 PropInd2 PropInd5 PropInd6 PropInd7 PropInd8 PropInd9 PropInd11 PropInd12.
Import ListNotations.
Set Implicit Arguments.
Open Scope Z_scope.
Local Notation highs := (map (fun c => cHigh c)).
Local Notation lows := (map (fun c => cLow c)).
Local Notation closes := (map (fun c => cClose c)).
Local Notation rows kl g := (Ok (tab (length kl) (fun i => mkRow (tm kl i) (g i)))).
Local Notation kline := (list (Candle (N := XR))).

Lemma window_app A (h w : list A) i k : (i < length w)%nat -> (k <= S i)%nat -> window (h ++ w) (length h + i) k = window w i k.
Proof.
  intros Hi Hk. unfold window. replace (S (length h + i)) with (length h + S i)%nat by lia. rewrite firstn_app_2.
  replace (length h + S i - k)%nat with (length h + (S i - k))%nat by lia.
  rewrite <- skipn_skipn_add. rewrite skipn_app, skipn_all, Nat.sub_diag. reflexivity.
Qed.
Lemma cn_app (N : Num) (h w : list Candle) i : cn (h ++ w) (length h + i) = cn w i.
Proof. unfold cn. rewrite app_nth2 by lia. f_equal. lia. Qed.
Lemma skipn_same A (l1 l2 : list A) a b m : length l1 = (a + m)%nat -> length l2 = (b + m)%nat ->
  (forall i x y, (i < m)%nat -> nth_error l1 (a + i) = Some x -> nth_error l2 (b + i) = Some y -> x = y) -> skipn a l1 = skipn b l2.
Proof.
  intros L1 L2 H. destruct m as [|m].
  { rewrite !skipn_all2 by lia. reflexivity. }
  destruct l1 as [|d l1']; [cbn in L1; lia|]. set (l := d :: l1') in *. clearbody l.
  apply nth_ext with (d := d) (d' := d); [rewrite !skipn_length; lia|]. rewrite skipn_length. intros i Hi. rewrite !nth_skipn.
  apply (H i); [lia|apply nth_error_nth'; lia|apply nth_error_nth'; lia].
Qed.

(** ** Functions of the bar index that agree from the d-th common bar on *)
Definition agree A (a b m d : nat) (f g : nat -> A) : Prop := forall j, (d <= j < m)%nat -> f (a + j)%nat = g (b + j)%nat.
Definition reals_to (n : nat) (f : nat -> @F XR) : Prop := forall j, (j < n)%nat -> exists r, f j = Fin r.

Lemma real_app h w : real_candles h -> real_candles w -> real_candles (h ++ w).
Proof. intros (b1 & H1) (b2 & H2). exists (b1 ++ b2). now apply Forall2_app. Qed.
Lemma real_cn (kl : kline) i : real_candles kl -> (i < length kl)%nat -> exists b, is_bar (cn kl i) b.
Proof. intros (bs & Hb) Hi. destruct (bars_cn Hb) as [_ Q]. eauto. Qed.

Lemma run_mem p f1 f2 a b m d i : reals_to (a + m) f1 -> reals_to (b + m) f2 -> agree a b m d f1 f2 ->
  (d + p <= S i)%nat -> (i < m)%nat -> runF (N := XR) p f1 (S (a + i)) = runF (N := XR) p f2 (S (b + i)).
Proof.
  intros R1 R2 Ag Hi Hm.
  assert (E : forall f n, reals_to n f -> exists g, forall j, (j < n)%nat -> f j = Fin (g j)).
  { intros f n Hf. exists (fun j => match f j with Fin r => r | _ => 0%R end). intros j Hj. destruct (Hf j Hj) as (r & ->). reflexivity. }
  destruct (E _ _ R1) as (g1 & E1), (E _ _ R2) as (g2 & E2).
  rewrite (@runF_exact p f1 g1 (a + m) (a + i)) by (lia || exact E1). rewrite (@runF_exact p f2 g2 (b + m) (b + i)) by (lia || exact E2).
  do 2 f_equal. rewrite (@window_full _ _ (a + i) p 0%R), (@window_full _ _ (b + i) p 0%R) by (rewrite ?tab_length; lia).
  apply tab_ext. intros j Hj. rewrite !tab_nth by lia.
  assert (Q : f1 (a + (S i - p + j))%nat = f2 (b + (S i - p + j))%nat) by (apply Ag; lia).
  rewrite E1, E2 in Q by lia. injection Q as Q. replace (S (a + i) - p + j)%nat with (a + (S i - p + j))%nat by lia. replace (S (b + i) - p + j)%nat with (b + (S i - p + j))%nat by lia. exact Q.
Qed.
Lemma sma_mem p f1 f2 a b m d i : (1 <= p)%nat -> reals_to (a + m) f1 -> reals_to (b + m) f2 -> agree a b m d f1 f2 ->
  (d + p <= S i)%nat -> (i < m)%nat -> smaF (N := XR) p f1 (a + i) = smaF (N := XR) p f2 (b + i).
Proof.
  intros Hp R1 R2 Ag Hi Hm. unfold smaF. rewrite (@run_mem p f1 f2 a b m d i R1 R2 Ag Hi Hm). do 3 f_equal.
  destruct (Nat.leb_spec p (a + i)), (Nat.leb_spec p (b + i)); lia.
Qed.

(** ** The two candle lists of the statement *)
Lemma remembers_T B (I : Indicator (N := XR)) (p : Param I) (f : Val I -> B) k (P : kline -> (nat -> Val I) -> Prop) : (1 <= k)%nat ->
  (forall kl, real_candles kl -> (k <= length kl)%nat -> exists g, rows_of I p kl = rows kl g /\ P kl g) ->
  (forall h1 h2 w g1 g2 i, real_candles h1 -> real_candles h2 -> real_candles w -> P (h1 ++ w) g1 -> P (h2 ++ w) g2 ->
     (k <= S i)%nat -> (i < length w)%nat -> f (g1 (length h1 + i)%nat) = f (g2 (length h2 + i)%nat)) ->
  remembers I p f k.
Proof.
  intros Hk HT HP h1 h2 w R1 R2 Rw Hw.
  destruct (HT (h1 ++ w)) as (g1 & E1 & P1); [now apply real_app|rewrite app_length; lia|].
  destruct (HT (h2 ++ w)) as (g2 & E2 & P2); [now apply real_app|rewrite app_length; lia|].
  eexists _, _. split; [exact E1|]. split; [exact E2|]. split; [apply tab_length|]. split; [apply tab_length|].
  unfold column. rewrite !tabmap. cbn [rVal].
  apply (@skipn_same _ _ _ _ _ (length w - (k - 1))); try (rewrite tab_length, app_length; lia).
  intros i x y Hi Hx Hy. apply tab_some in Hx as [_ ->], Hy as [_ ->].
  replace (length h1 + (k - 1) + i)%nat with (length h1 + (k - 1 + i))%nat by lia. replace (length h2 + (k - 1) + i)%nat with (length h2 + (k - 1 + i))%nat by lia.
  apply (HP h1 h2 w g1 g2 (k - 1 + i)%nat); auto; lia.
Qed.

Lemma remembers_P B (I : Indicator (N := XR)) (p : Param I) (f : Val I -> B) k (Q : kline -> nat -> B -> Prop) : (1 <= k)%nat ->
  (forall kl, real_candles kl -> (k <= length kl)%nat -> exists r, rows_of I p kl = Ok r /\ length r = length kl /\ forall i x, nth_error (column f r) i = Some x -> Q kl i x) ->
  (forall h1 h2 w i x y, real_candles h1 -> real_candles h2 -> real_candles w -> (k <= S i)%nat -> (i < length w)%nat ->
     Q (h1 ++ w) (length h1 + i)%nat x -> Q (h2 ++ w) (length h2 + i)%nat y -> x = y) ->
  remembers I p f k.
Proof.
  intros Hk HT HP h1 h2 w R1 R2 Rw Hw.
  destruct (HT (h1 ++ w)) as (r1 & E1 & L1 & Q1); [now apply real_app|rewrite app_length; lia|].
  destruct (HT (h2 ++ w)) as (r2 & E2 & L2 & Q2); [now apply real_app|rewrite app_length; lia|].
  exists r1, r2. split; [exact E1|]. split; [exact E2|]. split; [exact L1|]. split; [exact L2|].
  apply (@skipn_same _ _ _ _ _ (length w - (k - 1))); try (unfold column; rewrite map_length; rewrite ?L1, ?L2, app_length; lia).
  intros i x y Hi Hx Hy. apply Q1 in Hx. apply Q2 in Hy.
  replace (length h1 + (k - 1) + i)%nat with (length h1 + (k - 1 + i))%nat in Hx by lia. replace (length h2 + (k - 1) + i)%nat with (length h2 + (k - 1 + i))%nat in Hy by lia.
  apply (HP h1 h2 w (k - 1 + i)%nat); auto; lia.
Qed.
(** the numbers of a field in the last bars of the common part *)
Definition val (x : @F XR) : R := match x with Fin r => r | _ => 0%R end.
Definition nums (q : Candle (N := XR) -> @F XR) (kl : kline) : list R := map (fun c => val (q c)) kl.
Lemma nums_fins (q : Candle (N := XR) -> @F XR) kl : real_candles kl -> (forall c b, is_bar c b -> exists r, q c = Fin r) -> map q kl = fins (nums q kl).
Proof.
  intros (bs & H) Hq. unfold fins, nums. rewrite map_map. induction H as [|c b kl bs Hc H IH]; [reflexivity|]. cbn [map]. rewrite IH. destruct (Hq _ _ Hc) as (r & ->). reflexivity.
Qed.
Lemma nums_window q (h w : kline) i k : (i < length w)%nat -> (k <= S i)%nat -> window (nums q (h ++ w)) (length h + i) k = window (nums q w) i k.
Proof. intros Hi Hk. unfold nums. rewrite !window_map. now rewrite window_app. Qed.
Lemma nums_nth q (h w : kline) i : nth (length h + i) (nums q (h ++ w)) 0%R = nth i (nums q w) 0%R.
Proof. unfold nums. rewrite map_app, app_nth2 by (rewrite map_length; lia). f_equal. rewrite map_length. lia. Qed.

(** the same bar of the common part, and the one before it *)
Lemma agree_cn A (q : Candle (N := XR) -> A) (h1 h2 w : kline) : agree (length h1) (length h2) (length w) 0 (fun i => q (cn (h1 ++ w) i)) (fun i => q (cn (h2 ++ w) i)).
Proof. intros j Hj. now rewrite !cn_app. Qed.
Lemma agree_cn2 A (q : Candle (N := XR) -> Candle (N := XR) -> A) z (h1 h2 w : kline) : agree (length h1) (length h2) (length w) 1
  (fun i => if (i <? 1)%nat then z i else q (cn (h1 ++ w) i) (cn (h1 ++ w) (i - 1))) (fun i => if (i <? 1)%nat then z i else q (cn (h2 ++ w) i) (cn (h2 ++ w) (i - 1))).
Proof.
  intros j Hj. destruct (Nat.ltb_spec (length h1 + j) 1); [lia|]. destruct (Nat.ltb_spec (length h2 + j) 1); [lia|].
  replace (length h1 + j - 1)%nat with (length h1 + (j - 1))%nat by lia. replace (length h2 + j - 1)%nat with (length h2 + (j - 1))%nat by lia. now rewrite !cn_app.
Qed.
Lemma reals_cn (q : Candle (N := XR) -> @F XR) (kl : kline) : real_candles kl -> (forall c b, is_bar c b -> exists r, q c = Fin r) -> reals_to (length kl) (fun i => q (cn kl i)).
Proof. intros Hr Hq j Hj. destruct (real_cn Hr Hj) as (b & Hb). eauto. Qed.
Lemma bar_close c b : is_bar c b -> exists r, cClose c = Fin r. Proof. intros (_ & _ & _ & H & _). eauto. Qed.

(** ** Extremes *)
Lemma max_same (m1 m2 : @F XR) (l : list (@F XR)) : (forall x, In x l -> exists r, x = Fin r) -> max_of m1 l -> max_of m2 l -> m1 = m2.
Proof.
  intros Hl. assert (exists rs, l = fins rs) as (rs & ->).
  { clear m1 m2. induction l as [|x l IH]; [now exists []|]. destruct IH as (rs & ->); [intros; apply Hl; now right|]. destruct (Hl x (or_introl eq_refl)) as (r & ->). now exists (r :: rs). }
  intros H1 H2. apply max_of_exact in H1 as (r1 & -> & I1 & H1), H2 as (r2 & -> & I2 & H2). f_equal. apply Rle_antisym; auto.
Qed.
Lemma min_same (m1 m2 : @F XR) (l : list (@F XR)) : (forall x, In x l -> exists r, x = Fin r) -> min_of m1 l -> min_of m2 l -> m1 = m2.
Proof.
  intros Hl. assert (exists rs, l = fins rs) as (rs & ->).
  { clear m1 m2. induction l as [|x l IH]; [now exists []|]. destruct IH as (rs & ->); [intros; apply Hl; now right|]. destruct (Hl x (or_introl eq_refl)) as (r & ->). now exists (r :: rs). }
  intros H1 H2. apply min_of_exact in H1 as (r1 & -> & I1 & H1), H2 as (r2 & -> & I2 & H2). f_equal. apply Rle_antisym; auto.
Qed.
Lemma real_map (q : Candle (N := XR) -> @F XR) (kl : kline) : (forall c b, is_bar c b -> exists r, q c = Fin r) -> real_candles kl -> forall x, In x (map q kl) -> exists r, x = Fin r.
Proof. intros Hq (bs & Hb) x Hx. apply in_map_iff in Hx as (c & <- & Hc). induction Hb as [|c' b kl bs Hcb Hb IH]; [destruct Hc|]. destruct Hc as [->|Hc]; eauto. Qed.
Lemma real_no_nan (q : Candle (N := XR) -> @F XR) (kl : kline) : (forall c b, is_bar c b -> exists r, q c = Fin r) -> real_candles kl -> no_nan (map q kl).
Proof. intros Hq Hr. apply Forall_forall. intros x Hx. destruct (real_map q Hq Hr x Hx) as (r & ->). reflexivity. Qed.
Lemma top_mem (q : Candle (N := XR) -> @F XR) (h1 h2 w : kline) p u1 u2 i : (forall c b, is_bar c b -> exists r, q c = Fin r) -> real_candles w ->
  tops q p (h1 ++ w) u1 -> tops q p (h2 ++ w) u2 -> (Z.to_nat p <= S i)%nat -> (i < length w)%nat -> u1 (length h1 + i)%nat = u2 (length h2 + i)%nat.
Proof.
  intros Hq Hw T1 T2 Hp Hi. specialize (T1 (length h1 + i)%nat ltac:(rewrite app_length; lia)). specialize (T2 (length h2 + i)%nat ltac:(rewrite app_length; lia)).
  rewrite window_map in T1, T2. rewrite window_app in T1, T2 by lia. rewrite <- window_map in T1, T2.
  apply (max_same (l := window (map q w) i (Z.to_nat p))); auto. intros x Hx. apply window_In in Hx. eapply real_map; eauto.
Qed.
Lemma bottom_mem (q : Candle (N := XR) -> @F XR) (h1 h2 w : kline) p u1 u2 i : (forall c b, is_bar c b -> exists r, q c = Fin r) -> real_candles w ->
  bottoms q p (h1 ++ w) u1 -> bottoms q p (h2 ++ w) u2 -> (Z.to_nat p <= S i)%nat -> (i < length w)%nat -> u1 (length h1 + i)%nat = u2 (length h2 + i)%nat.
Proof.
  intros Hq Hw T1 T2 Hp Hi. specialize (T1 (length h1 + i)%nat ltac:(rewrite app_length; lia)). specialize (T2 (length h2 + i)%nat ltac:(rewrite app_length; lia)).
  rewrite window_map in T1, T2. rewrite window_app in T1, T2 by lia. rewrite <- window_map in T1, T2.
  apply (min_same (l := window (map q w) i (Z.to_nat p))); auto. intros x Hx. apply window_In in Hx. eapply real_map; eauto.
Qed.
Lemma bar_high c b : is_bar c b -> exists r, cHigh c = Fin r. Proof. intros (_ & H & _). eauto. Qed.
Lemma bar_low c b : is_bar c b -> exists r, cLow c = Fin r. Proof. intros (_ & _ & H & _). eauto. Qed.
Lemma bar_volume c b : is_bar c b -> exists r, cVolume c = Fin r. Proof. intros (_ & _ & _ & _ & H). eauto. Qed.
Lemma tops_real (q : Candle (N := XR) -> @F XR) (kl : kline) p u : (forall c b, is_bar c b -> exists r, q c = Fin r) -> real_candles kl -> tops q p kl u -> reals_to (length kl) u.
Proof.
  intros Hq Hr T j Hj. destruct (T j Hj) as ((x & Hx & E) & _). apply window_In in Hx. destruct (real_map q Hq Hr x Hx) as (r & ->).
  destruct (u j) as [y| | |]; try discriminate. eauto.
Qed.
Lemma bottoms_real (q : Candle (N := XR) -> @F XR) (kl : kline) p u : (forall c b, is_bar c b -> exists r, q c = Fin r) -> real_candles kl -> bottoms q p kl u -> reals_to (length kl) u.
Proof.
  intros Hq Hr T j Hj. destruct (T j Hj) as ((x & Hx & E) & _). apply window_In in Hx. destruct (real_map q Hq Hr x Hx) as (r & ->).
  destruct (u j) as [y| | |]; try discriminate. eauto.
Qed.

(** ** Numbers stay numbers *)
Definition isR (x : @F XR) : Prop := exists r, x = Fin r.
Lemma isR_add x y : isR x -> isR y -> isR (x +~ y). Proof. intros (a & ->) (b & ->). eexists; reflexivity. Qed.
Lemma isR_mul x y : isR x -> isR y -> isR (x *~ y). Proof. intros (a & ->) (b & ->). eexists; reflexivity. Qed.
Lemma isR_sub x y : isR x -> isR y -> isR (x -~ y). Proof. intros (a & ->) (b & ->). eexists; reflexivity. Qed.
Lemma isR_abs x : isR x -> isR (fabs x). Proof. intros (a & ->). eexists; reflexivity. Qed.
Lemma isR_Z k : isR (ofZ k). Proof. eexists; reflexivity. Qed.
Lemma isR_clean x y : isR x -> isR y -> isR (div_clean x y). Proof. intros (a & ->) (b & ->). eexists. apply div_clean_exact. Qed.
Lemma isR_divZ x k : k <> 0 -> isR x -> isR (x /~ ofZ k).
Proof. intros Hk (a & ->). exists (a / IZR k)%R. cbn. destruct (Reqb_spec (IZR k) 0) as [E|E]; [apply eq_IZR in E; contradiction|reflexivity]. Qed.
Lemma isR_if (b : bool) x y : isR x -> isR y -> isR (if b then x else y). Proof. now destruct b. Qed.
Lemma isR_max x y : isR x -> isR y -> isR (fmax x y).
Proof. intros (a & ->) (b & ->). unfold fmax. cbn. repeat (match goal with |- context [if ?c then _ else _] => destruct c end); eexists; reflexivity. Qed.
Ltac isR_tac := repeat first [assumption|apply isR_sub|apply isR_add|apply isR_mul|apply isR_sub|apply isR_abs|apply isR_clean|(apply isR_divZ; [discriminate|])|apply isR_max|apply isR_if|apply isR_Z|(eapply bar_close; eassumption)|(eapply bar_high; eassumption)|(eapply bar_low; eassumption)|(eapply bar_volume; eassumption)].

Lemma nth_error_pointwise A (f : A -> A -> A) : forall xs ys i z, nth_error (pointwise f xs ys) i = Some z -> exists x y, nth_error xs i = Some x /\ nth_error ys i = Some y /\ z = f x y.
Proof.
  unfold pointwise. induction xs as [|x xs IH]; intros [|y ys] [|i] z; cbn; try discriminate. { intros [= <-]. eauto. } apply IH.
Qed.
Lemma nth_error_firstn' A (l : list A) : forall n i, (i < n)%nat -> nth_error (firstn n l) i = nth_error l i.
Proof. induction l as [|x l IH]; intros [|n] [|i] Hi; cbn; try lia; auto. apply IH. lia. Qed.
Lemma column_nth (I : Indicator (N := XR)) B (f : Val I -> B) r i x : nth_error (column f r) i = Some x -> exists y, nth_error r i = Some y /\ x = f (rVal y).
Proof. unfold column. rewrite nth_error_map. destruct (nth_error r i); [|discriminate]. intros [= <-]. eauto. Qed.
Lemma boll_eta (v : BollV (N := XR)) a b c d : blUpper v = a -> blMiddle v = b -> blLower v = c -> blMD v = d -> v = mkBollV a b c d.
Proof. intros <- <- <- <-. now destruct v. Qed.

Section Windowed.
Variable p : nat.
Hypothesis Hp : (1 <= p)%nat.
Local Notation P := (Z.of_nat p).

Theorem C95_Ma : remembers I_Ma P (fun v => v) p /\ remembers I_Sma P (fun v => v) p.
Proof.
  split; (apply remembers_T with (P := fun kl g => g = smaF p (fun i => cClose (cn kl i))); [exact Hp| |];
  [intros kl _ _; eexists; split; [|reflexivity]; first [rewrite Ma_T by lia|rewrite Sma_ind_T by lia]; now rewrite Nat2Z.id|];
  intros h1 h2 w g1 g2 i R1 R2 Rw -> -> Hk Hi; apply sma_mem with (m := length w) (d := 0%nat); try lia; try (apply agree_cn);
  rewrite <- app_length; apply reals_cn; try (now apply real_app); apply bar_close).
Qed.

Theorem C95_Vwma : remembers I_Vwma P (fun v => v) p.
Proof.
  apply remembers_T with (P := fun kl g => g = vwmaF p kl); [exact Hp| |].
  { intros kl _ _. eexists. split; [|reflexivity]. rewrite Vwma_T by lia. now rewrite Nat2Z.id. }
  intros h1 h2 w g1 g2 i R1 R2 Rw -> -> Hk Hi. unfold vwmaF.
  assert (Q : forall c b, is_bar c b -> exists r, cClose c *~ cVolume c = Fin r) by (intros c b (_ & _ & _ & -> & ->); eexists; reflexivity).
  f_equal; (apply run_mem with (m := length w) (d := 0%nat); try lia; try (apply agree_cn with (q := fun c => cVolume c)); try (apply agree_cn with (q := fun c => cClose c *~ cVolume c)); rewrite <- app_length);
  [apply reals_cn with (q := fun c => cClose c *~ cVolume c)|apply reals_cn with (q := fun c => cClose c *~ cVolume c)|apply reals_cn with (q := fun c => cVolume c)|apply reals_cn with (q := fun c => cVolume c)];
  try (now apply real_app); first [exact Q|exact bar_volume].
Qed.
Definition flowM (c : Candle (N := XR)) : @F XR := div_clean ((cClose c +~ cLow c *~ ofZ (-1)) +~ (cHigh c +~ cClose c *~ ofZ (-1)) *~ ofZ (-1)) (cHigh c +~ cLow c *~ ofZ (-1)) *~ cVolume c.
Theorem C95_CMF : remembers I_CMF P (fun v => v) p.
Proof.
  apply remembers_T with (P := fun kl g => g = cmfF p kl); [exact Hp| |].
  { intros kl _ _. eexists. split; [|reflexivity]. rewrite CMF_T by lia. now rewrite Nat2Z.id. }
  intros h1 h2 w g1 g2 i R1 R2 Rw -> -> Hk Hi. unfold cmfF.
  assert (Q : forall c b, is_bar c b -> exists r, flowM c = Fin r).
  { intros c b Hb. unfold flowM. change (isR (div_clean ((cClose c +~ cLow c *~ ofZ (-1)) +~ (cHigh c +~ cClose c *~ ofZ (-1)) *~ ofZ (-1)) (cHigh c +~ cLow c *~ ofZ (-1)) *~ cVolume c)). isR_tac. }
  f_equal; (apply run_mem with (m := length w) (d := 0%nat); try lia; try (apply agree_cn with (q := fun c => cVolume c)); try (apply agree_cn with (q := flowM)); rewrite <- app_length);
  [apply reals_cn with (q := flowM)|apply reals_cn with (q := flowM)|apply reals_cn with (q := fun c => cVolume c)|apply reals_cn with (q := fun c => cVolume c)];
  try (now apply real_app); first [exact Q|exact bar_volume].
Qed.
Theorem C95_Donchian : remembers I_Donchian P (fun v => v) p.
Proof.
  apply remembers_T with (P := fun kl g => exists u l, tops (fun c => cClose c) P kl u /\ bottoms (fun c => cClose c) P kl l /\ g = fun i => mkBand (u i) ((u i +~ l i) *~ (ofZ 1 /~ ofZ 2)) (l i)); [exact Hp| |].
  { intros kl Hr _. destruct (@Donchian_T XR XR_ord P kl ltac:(lia) (real_no_nan _ bar_close Hr)) as (u & l & Hu & Hl & E). eexists. split; [exact E|]. exists u, l. auto. }
  intros h1 h2 w g1 g2 i R1 R2 Rw (u1 & l1 & U1 & L1 & ->) (u2 & l2 & U2 & L2 & ->) Hk Hi.
  rewrite (@top_mem _ h1 h2 w P u1 u2 i bar_close Rw U1 U2), (@bottom_mem _ h1 h2 w P l1 l2 i bar_close Rw L1 L2) by (lia || exact Hi). reflexivity.
Qed.
Theorem C95_Williams : remembers I_Williams P (fun v => v) p.
Proof.
  apply remembers_T with (P := fun kl g => exists u l, tops (fun c => cHigh c) P kl u /\ bottoms (fun c => cLow c) P kl l /\ g = wilF (fun i => cClose (cn kl i)) u l); [exact Hp| |].
  { intros kl Hr _. destruct (@Williams_T XR XR_ord P kl ltac:(lia) (real_no_nan _ bar_high Hr) (real_no_nan _ bar_low Hr)) as (u & l & Hu & Hl & E). eexists. split; [exact E|]. exists u, l. auto. }
  intros h1 h2 w g1 g2 i R1 R2 Rw (u1 & l1 & U1 & L1 & ->) (u2 & l2 & U2 & L2 & ->) Hk Hi. unfold wilF.
  rewrite (@top_mem _ h1 h2 w P u1 u2 i bar_high Rw U1 U2), (@bottom_mem _ h1 h2 w P l1 l2 i bar_low Rw L1 L2) by (lia || exact Hi). now rewrite !cn_app.
Qed.

Lemma stoch_mem (h1 h2 w : kline) u1 l1 u2 l2 : real_candles w -> tops (fun c => cHigh c) P (h1 ++ w) u1 -> bottoms (fun c => cLow c) P (h1 ++ w) l1 ->
  tops (fun c => cHigh c) P (h2 ++ w) u2 -> bottoms (fun c => cLow c) P (h2 ++ w) l2 ->
  agree (length h1) (length h2) (length w) (p - 1) (stoK (fun i => cClose (cn (h1 ++ w) i)) u1 l1) (stoK (fun i => cClose (cn (h2 ++ w) i)) u2 l2).
Proof.
  intros Rw U1 L1 U2 L2 i Hi. unfold stoK.
  rewrite (@top_mem _ h1 h2 w P u1 u2 i bar_high Rw U1 U2), (@bottom_mem _ h1 h2 w P l1 l2 i bar_low Rw L1 L2) by lia. now rewrite !cn_app.
Qed.
Theorem C95_Stochastic : remembers I_Stoch P (fun v => kdK v) p /\ remembers I_Stoch P (fun v => v) (p + 2).
Proof.
  set (T := fun (kl : kline) (g : nat -> KD (N := XR)) => exists u l, tops (fun c => cHigh c) P kl u /\ bottoms (fun c => cLow c) P kl l /\
    g = fun i => mkKD (stoK (fun i => cClose (cn kl i)) u l i) (smaF 3 (stoK (fun i => cClose (cn kl i)) u l) i)).
  assert (ET : forall kl : kline, real_candles kl -> exists g, rows_of I_Stoch P kl = rows kl g /\ T kl g).
  { intros kl Hr. destruct (@Stoch_T XR XR_ord P kl ltac:(lia) (real_no_nan _ bar_high Hr) (real_no_nan _ bar_low Hr)) as (u & l & Hu & Hl & E). eexists. split; [exact E|]. exists u, l. auto. }
  split; apply remembers_T with (P := T); try lia; auto.
  - intros h1 h2 w g1 g2 i R1 R2 Rw (u1 & l1 & U1 & L1 & ->) (u2 & l2 & U2 & L2 & ->) Hk Hi. cbn [kdK]. apply (@stoch_mem h1 h2 w u1 l1 u2 l2 Rw U1 L1 U2 L2). lia.
  - intros h1 h2 w g1 g2 i R1 R2 Rw (u1 & l1 & U1 & L1 & ->) (u2 & l2 & U2 & L2 & ->) Hk Hi. pose proof (@stoch_mem h1 h2 w u1 l1 u2 l2 Rw U1 L1 U2 L2) as Ag.
    assert (RK : forall kl u l, real_candles kl -> tops (fun c => cHigh c) P kl u -> bottoms (fun c => cLow c) P kl l -> reals_to (length kl) (stoK (fun i => cClose (cn kl i)) u l)).
    { intros kl u l Hr Hu Hl j Hj. destruct (real_cn Hr Hj) as (b & Hb). pose proof (@tops_real _ kl P u bar_high Hr Hu j Hj). pose proof (@bottoms_real _ kl P l bar_low Hr Hl j Hj).
      change (isR (stoK (fun i => cClose (cn kl i)) u l j)). unfold stoK. repeat first [apply isR_mul|apply isR_clean|apply isR_add|apply isR_Z]; try assumption; eapply bar_close; eassumption. }
    f_equal; [apply Ag; lia|]. apply sma_mem with (m := length w) (d := (p - 1)%nat); try lia; auto; rewrite <- app_length; apply RK; auto; now apply real_app.
Qed.

(** a series whose value at a bar depends on the bar and its predecessor *)
Lemma two_mem (ser : kline -> nat -> @F XR) (q : Candle (N := XR) -> Candle (N := XR) -> @F XR) :
  (forall kl j, ser kl (S j) = q (cn kl (S j)) (cn kl j)) -> (forall kl j, real_candles kl -> (j < length kl)%nat -> isR (ser kl j)) ->
  forall h1 h2 w i, real_candles h1 -> real_candles h2 -> real_candles w -> (p + 1 <= S i)%nat -> (i < length w)%nat ->
  runF p (ser (h1 ++ w)) (S (length h1 + i)) = runF p (ser (h2 ++ w)) (S (length h2 + i)) /\ smaF p (ser (h1 ++ w)) (length h1 + i) = smaF p (ser (h2 ++ w)) (length h2 + i).
Proof.
  intros HF HR h1 h2 w i R1 R2 Rw Hk Hi.
  assert (Ag : agree (length h1) (length h2) (length w) 1 (ser (h1 ++ w)) (ser (h2 ++ w))).
  { intros [|j] Hj; [lia|]. replace (length h1 + S j)%nat with (S (length h1 + j)) by lia. replace (length h2 + S j)%nat with (S (length h2 + j)) by lia. rewrite !HF.
    replace (S (length h1 + j))%nat with (length h1 + S j)%nat by lia. replace (S (length h2 + j)) with (length h2 + S j)%nat by lia. now rewrite !cn_app. }
  assert (RR : forall h, real_candles h -> reals_to (length h + length w) (ser (h ++ w))) by (intros h Hh j Hj; apply HR; [now apply real_app|now rewrite app_length]).
  split; [apply run_mem with (m := length w) (d := 1%nat)|apply sma_mem with (m := length w) (d := 1%nat)]; auto; lia.
Qed.
Theorem C95_EMV : remembers I_EMV P (fun v => v) (p + 1).
Proof.
  apply remembers_T with (P := fun kl g => g = smaF p (emvF kl)); [lia| |].
  { intros kl _ _. eexists. split; [|reflexivity]. rewrite EMV_T by lia. now rewrite Nat2Z.id. }
  intros h1 h2 w g1 g2 i R1 R2 Rw -> -> Hk Hi.
  eapply (@two_mem (fun kl => emvF kl) (fun c d => div_clean ((cHigh c +~ cLow c) *~ (ofZ 1 /~ ofZ 2) +~ ((cHigh d +~ cLow d) *~ (ofZ 1 /~ ofZ 2)) *~ ofZ (-1)) (div_clean (cVolume c *~ (ofZ 1 /~ ofZ 100000000)) (cHigh c +~ cLow c *~ ofZ (-1))))); eauto.
  - intros kl j. unfold emvF, midF. change (Z.to_nat 1) with 1%nat. cbn [Nat.ltb Nat.leb]. now replace (S j - 1)%nat with j by lia.
  - intros kl j Hr Hj. destruct (real_cn Hr Hj) as (b & Hb). unfold emvF, midF. change (Z.to_nat 1) with 1%nat.
    assert (isR (if (j <? 1)%nat then ofZ 0 else (cHigh (cn kl (j - 1)) +~ cLow (cn kl (j - 1))) *~ (ofZ 1 /~ ofZ 2))).
    { destruct (Nat.ltb_spec j 1); [apply isR_Z|]. assert (Hj' : (j - 1 < length kl)%nat) by lia. destruct (real_cn Hr Hj') as (b' & Hb'). isR_tac. }
    isR_tac.
Qed.
Theorem C95_MFI : remembers I_MFI P (fun v => v) (p + 1).
Proof.
  apply remembers_T with (P := fun kl g => g = mfiF p kl); [lia| |].
  { intros kl _ _. eexists. split; [|reflexivity]. rewrite MFI_T by lia. now rewrite Nat2Z.id. }
  intros h1 h2 w g1 g2 i R1 R2 Rw -> -> Hk Hi. unfold mfiF.
  set (raw := fun c : Candle (N := XR) => (cHigh c +~ cLow c +~ cClose c) /~ ofZ 3 *~ cVolume c).
  set (fl := fun c d : Candle (N := XR) => sgnF (raw c +~ raw d *~ ofZ (-1)) *~ raw c).
  assert (Rr : forall kl j, real_candles kl -> (j < length kl)%nat -> isR (rawF kl j)).
  { intros kl j Hr Hj. destruct (real_cn Hr Hj) as (b & Hb). unfold rawF, tpF. isR_tac. }
  assert (Rf : forall kl j, real_candles kl -> (j < length kl)%nat -> isR (flowF kl j)).
  { intros kl j Hr Hj. unfold flowF, sgnF. change (Z.to_nat 1) with 1%nat. apply isR_mul; [apply isR_if; apply isR_Z|now apply Rr]. }
  assert (Ef : forall kl j, flowF kl (S j) = fl (cn kl (S j)) (cn kl j)).
  { intros kl j. unfold flowF, fl, raw, rawF, tpF. change (Z.to_nat 1) with 1%nat. cbn [Nat.ltb Nat.leb]. now replace (S j - 1)%nat with j by lia. }
  destruct (@two_mem (fun kl => posF kl) (fun c d => if fl c d >~ ofZ 0 then fl c d else ofZ 0)) with (h1 := h1) (h2 := h2) (w := w) (i := i) as [Q1 _]; auto.
  { intros kl j. unfold posF. now rewrite Ef. }
  { intros kl j Hr Hj. unfold posF. apply isR_if; [now apply Rf|apply isR_Z]. }
  destruct (@two_mem (fun kl => negF kl) (fun c d => (if fl c d <~ ofZ 0 then fl c d else ofZ 0) *~ ofZ (-1))) with (h1 := h1) (h2 := h2) (w := w) (i := i) as [Q2 _]; auto.
  { intros kl j. unfold negF. now rewrite Ef. }
  { intros kl j Hr Hj. unfold negF. apply isR_mul; [|apply isR_Z]. apply isR_if; [now apply Rf|apply isR_Z]. }
  rewrite Q1, Q2. reflexivity.
Qed.
Theorem C95_Vortex : remembers I_Vortex P (fun v => v) (p + 1).
Proof.
  apply remembers_T with (P := fun kl g => g = vortexF p kl); [lia| |].
  { intros kl _ _. eexists. split; [|reflexivity]. rewrite Vortex_T by lia. now rewrite Nat2Z.id. }
  intros h1 h2 w g1 g2 i R1 R2 Rw -> -> Hk Hi. destruct i as [|i]; [lia|].
  assert (RS : forall (ser : kline -> nat -> @F XR) (q : Candle (N := XR) -> Candle (N := XR) -> @F XR), (forall kl j, ser kl (S j) = q (cn kl (S j)) (cn kl j)) -> (forall kl j, real_candles kl -> (j < length kl)%nat -> isR (ser kl j)) ->
     ringS p (ser (h1 ++ w)) (S (length h1 + i)) = ringS p (ser (h2 ++ w)) (S (length h2 + i))).
  { intros ser q HF HR.
    assert (E : forall h, real_candles h -> ringS p (ser (h ++ w)) (S (length h + i)) = runF p (fun j => ser (h ++ w) (S j)) (S (length h + i))).
    { intros h Hh. eapply (@ringS_runF p _ (fun j => match ser (h ++ w) j with Fin r => r | _ => 0%R end) (length (h ++ w))); [rewrite app_length; lia|].
      intros j Hj. destruct (HR (h ++ w) j (real_app Hh Rw) Hj) as (r & ->). reflexivity. }
    rewrite !E by assumption. apply run_mem with (m := (length w - 1)%nat) (d := 0%nat); try lia.
    - intros j Hj. apply HR; [now apply real_app|rewrite app_length; lia].
    - intros j Hj. apply HR; [now apply real_app|rewrite app_length; lia].
    - intros j Hj. rewrite !HF. replace (S (length h1 + j)) with (length h1 + S j)%nat by lia. replace (S (length h2 + j)) with (length h2 + S j)%nat by lia. now rewrite !cn_app. }
  assert (H0 : forall (kl : kline) j, real_candles kl -> (j < length kl)%nat -> isR (vPF kl j) /\ isR (vMF kl j) /\ isR (tr3F kl j)).
  { intros kl [|j] Hr Hj; [repeat split; apply isR_Z|]. assert (Hj' : (j < length kl)%nat) by lia. destruct (real_cn Hr Hj) as (b & Hb), (real_cn Hr Hj') as (b' & Hb').
    unfold vPF, vMF, tr3F. repeat split; isR_tac. }
  replace (length h1 + S i)%nat with (S (length h1 + i)) by lia. replace (length h2 + S i)%nat with (S (length h2 + i)) by lia. unfold vortexF.
  rewrite (RS (fun kl => vPF kl) (fun c d => fabs (cHigh c -~ cLow d))) by (try reflexivity; intros; now apply H0).
  rewrite (RS (fun kl => vMF kl) (fun c d => fabs (cLow c -~ cHigh d))) by (try reflexivity; intros; now apply H0).
  rewrite (RS (fun kl => tr3F kl) (fun c d => fmax (cHigh c -~ cLow c) (fmax (fabs (cHigh c -~ cClose d)) (fabs (cLow c -~ cClose d))))) by (try reflexivity; intros; now apply H0).
  reflexivity.
Qed.

Theorem C95_Boll k : remembers I_Boll (mkBollP P k) (fun v => v) p.
Proof.
  apply remembers_P with (Q := fun kl i v => let w := window (nums (fun c => cClose c) kl) i p in
    (p <= S i)%nat -> v = mkBollV (N := XR) (Fin (mean w + sqrt (variance w))) (Fin (mean w)) (Fin (mean w - sqrt (variance w))) (Fin (sqrt (variance w)))); [lia| |].
  - intros kl Hr Hk. destruct (@C52_exact (mkBollP P k) kl (nums (fun c => cClose c) kl)) as (r & E & L & H); [cbn [blN]; lia|now apply nums_fins; [|apply bar_close]|].
    exists r. split; [exact E|]. split; [exact L|]. intros i x Hx w Hi. unfold column in Hx. rewrite nth_error_map in Hx. destruct (nth_error r i) as [y|] eqn:Ey; [|discriminate]. injection Hx as <-.
    specialize (H i y Ey). cbn [blN] in H. rewrite Nat2Z.id in H. fold w in H. destruct (Z.ltb_spec (Z.of_nat i) (P - 1)); [lia|]. cbn zeta in H. destruct H as (H1 & H2 & H3 & H4). exact (boll_eta _ H3 H1 H4 H2).
  - intros h1 h2 w i x y _ _ _ Hk Hi Hx Hy. cbn zeta in Hx, Hy. rewrite Hx, Hy by lia. now rewrite !nums_window by lia.
Qed.
Theorem C95_Cci : remembers I_Cci (mkCciP P P) (fun v => v) p /\ remembers I_AiCoinCCI P (fun v => v) p.
Proof.
  assert (G : forall (I : Indicator (N := XR)) (a : Param I) (f : Val I -> @F XR) flat q, (forall c b, is_bar c b -> exists r, q c = Fin r) ->
    (forall kl xs, map q kl = fins xs -> (exists ys, closes kl = fins ys) -> (exists ys, map typical_price kl = fins ys) -> rmap (column f) (rows_of I a kl) = Ok (tab (length kl) (fun i => if (S i <? p)%nat then Fin 0 else
      let w := window xs i p in if Reqb (mad w) 0 then flat else Fin ((nth i xs 0 - mean w) / (15 / 1000 * mad w))%R))) -> remembers I a f p).
  { intros I a f flat q Hq HI.
    assert (TP : forall c b, is_bar c b -> exists r, typical_price c = Fin r) by (intros c b Hb; unfold typical_price; change (isR ((cHigh c +~ cLow c +~ cClose c) /~ ofZ 3)); isR_tac).
    apply remembers_P with (Q := fun kl i v => let w := window (nums q kl) i p in v = if (S i <? p)%nat then Fin 0 else if Reqb (mad w) 0 then flat else Fin ((nth i (nums q kl) 0 - mean w) / (15 / 1000 * mad w))%R); [lia| |].
    - intros kl Hr Hk. specialize (HI kl _ (nums_fins q Hr Hq) (ex_intro _ _ (nums_fins (fun c => cClose c) Hr bar_close)) (ex_intro _ _ (nums_fins typical_price Hr TP))).
      destruct (rows_of I a kl) as [r|]; [|discriminate]. cbn [rmap] in HI. injection HI as HI. exists r. split; [reflexivity|].
      split; [apply (f_equal (@length _)) in HI; unfold column in HI; now rewrite map_length, tab_length in HI|].
      intros i x Hx. rewrite HI in Hx. apply tab_some in Hx as [_ Hx]. exact Hx.
    - intros h1 h2 w i x y _ _ _ Hk Hi -> ->. destruct (Nat.ltb_spec (S (length h1 + i)) p), (Nat.ltb_spec (S (length h2 + i)) p); try lia. now rewrite !nums_window, !nums_nth by lia. }
  split.
  - apply G with (flat := NaN) (q := typical_price). { intros c b Hb; unfold typical_price; change (isR ((cHigh c +~ cLow c +~ cClose c) /~ ofZ 3)); isR_tac. }
    intros kl xs Hx (ys & Hy) _. exact (proj1 (@C79_exact p kl xs ys Hp Hx Hy)).
  - apply G with (flat := Fin 0) (q := fun c => cClose c); [apply bar_close|]. intros kl xs Hx _ (ys & Hy). exact (proj2 (@C79_exact p kl ys xs Hp Hy Hx)).
Qed.
Theorem C95_LinearRegCandles s : (2 <= p)%nat ->
  remembers I_LRC (mkLrcP s P false) (fun v => (lcOpen v, lcHigh v, lcLow v, lcClose v)) p.
Proof.
  intros H2. set (e := fun q kl i (v : @F XR) => (p <= S i)%nat -> exists b m, least_squares b m (points (window (nums q kl) i p)) /\ v = Fin (b + m * (INR p - 1))).
  apply remembers_P with (Q := fun kl i (v : @F XR * @F XR * @F XR * @F XR) => e (fun c => cOpen c) kl i (fst (fst (fst v))) /\ e (fun c => cHigh c) kl i (snd (fst (fst v))) /\ e (fun c => cLow c) kl i (snd (fst v)) /\ e (fun c => cClose c) kl i (snd v)); [lia| |].
  - intros kl Hr Hk. destruct (@C81_exact p s kl (nums (fun c => cOpen c) kl) (nums (fun c => cHigh c) kl) (nums (fun c => cLow c) kl) (nums (fun c => cClose c) kl) H2 Hk) as (r & E & L & H);
      try (apply nums_fins; [exact Hr|first [apply bar_close|apply bar_high|apply bar_low|intros c b (Q & _); eauto]]).
    exists r. split; [exact E|]. split; [exact L|]. intros i x Hx. apply column_nth in Hx as (y & Ey & ->).
    specialize (H i y Ey). cbn zeta in H. cbn [fst snd]. unfold e. destruct (Nat.ltb_spec (S i) p); [repeat split; intros; lia|]. tauto.
  - intros h1 h2 w i x y _ _ _ Hk Hi Hx Hy. destruct x as (((x1 & x2) & x3) & x4), y as (((y1 & y2) & y3) & y4). cbn [fst snd] in Hx, Hy.
    assert (U : forall q v1 v2, e q (h1 ++ w) (length h1 + i)%nat v1 -> e q (h2 ++ w) (length h2 + i)%nat v2 -> v1 = v2).
    { intros q v1 v2 E1 E2. destruct (E1 ltac:(lia)) as (b1 & m1 & [S1 U1] & ->), (E2 ltac:(lia)) as (b2 & m2 & [S2 U2] & ->). rewrite nums_window in * by lia.
      destruct (U1 b2 m2 (S2 b1 m1)) as [-> ->]. reflexivity. }
    destruct Hx as (A1 & A2 & A3 & A4), Hy as (B1 & B2 & B3 & B4). repeat f_equal; eapply U; eassumption.
Qed.
End Windowed.

(** a pivot level is computed from its own candle alone; the Camarilla object adds a moving average column, which is not *)
Theorem C95_Camarilla p : remembers I_Camarilla p (fun v => (caPivot v, [caH1 v; caH2 v; caH3 v; caH4 v; caH5 v; caH6 v], [caL1 v; caL2 v; caL3 v; caL4 v; caL5 v; caL6 v])) 1.
Proof.
  apply remembers_T with (P := fun kl g => g = camF (camEMA p) kl); [lia| |].
  { intros kl _ _. eexists. split; [apply Camarilla_T|reflexivity]. }
  intros h1 h2 w g1 g2 i _ _ _ -> -> _ Hi. unfold camF, tpF, getCamarilla. cbn. now rewrite !cn_app.
Qed.
Theorem C95_Ichimoku p : 1 <= icConv p -> 1 <= icSpanB p -> 0 <= icLag p ->
  remembers I_Ichimoku p (fun v => iConv v) (Nat.max 9 (Z.to_nat (icConv p))) /\ remembers I_Ichimoku p (fun v => iBase v) 26 /\
  remembers I_Ichimoku p (fun v => iSpanA v) (Nat.max 26 (Z.to_nat (icConv p))) /\
  remembers I_Ichimoku p (fun v => iSpanB v) (Z.to_nat (icSpanB p)) /\ remembers I_Ichimoku p (fun v => iLag v) (S (Z.to_nat (icLag p))).
Proof.
  intros Hc Hs Hl.
  assert (ET : forall kl : kline, real_candles kl -> _) by (intros kl Hr; exact (@C61_lines_partial XR XR_ord p kl (real_no_nan _ bar_high Hr) (real_no_nan _ bar_low Hr) Hc Hs Hl)).
  set (mid := fun a b (kl : kline) i (y : @F XR) => exists h l, max_of h (window (highs kl) i (Z.to_nat a)) /\ min_of l (window (lows kl) i (Z.to_nat b)) /\ y = (h +~ l) *~ (ofZ 1 /~ ofZ 2)).
  assert (M : forall a b h1 h2 w i x y, real_candles w -> (Nat.max (Z.to_nat a) (Z.to_nat b) <= S i)%nat -> (i < length w)%nat -> mid a b (h1 ++ w) (length h1 + i)%nat x -> mid a b (h2 ++ w) (length h2 + i)%nat y -> x = y).
  { intros a b h1 h2 w i x y Rw Hk Hi (a1 & b1 & A1 & B1 & ->) (a2 & b2 & A2 & B2 & ->). rewrite window_map in A1, A2, B1, B2. rewrite window_app in A1, A2, B1, B2 by lia. rewrite <- window_map in A1, A2, B1, B2.
    assert (a1 = a2) as ->. { apply (max_same (l := window (highs w) i (Z.to_nat a))); auto. intros z Hz; apply window_In in Hz; eapply real_map; eauto; apply bar_high. }
    assert (b1 = b2) as ->. { apply (min_same (l := window (lows w) i (Z.to_nat b))); auto. intros z Hz; apply window_In in Hz; eapply real_map; eauto; apply bar_low. }
    reflexivity. }
  assert (G : forall a b f, 1 <= a -> 1 <= b -> (forall kl, real_candles kl -> exists r, rows_of I_Ichimoku p kl = Ok r /\ length r = length kl /\ midpoints a b kl (column f r)) -> remembers I_Ichimoku p f (Nat.max (Z.to_nat a) (Z.to_nat b))).
  { intros a b f Ha Hb HI. apply remembers_P with (Q := mid a b); [lia| |].
    - intros kl Hr _. destruct (HI kl Hr) as (r & E & L & _ & Q). exists r. eauto.
    - intros h1 h2 w i x y _ _ Rw Hk Hi. now apply M. }
  repeat apply conj.
  - change 9%nat with (Z.to_nat 9). apply G; [lia|lia|]. intros kl Hr. destruct (ET kl Hr) as (r & E & L & M1 & M2 & M3 & M4 & M5). eauto.
  - change 26%nat with (Nat.max (Z.to_nat 26) (Z.to_nat 26)). apply G; [lia|lia|]. intros kl Hr. destruct (ET kl Hr) as (r & E & L & M1 & M2 & M3 & M4 & M5). eauto.
  - apply remembers_P with (Q := fun kl i y => exists c b, mid 9 (icConv p) kl i c /\ mid 26 26 kl i b /\ y = (c +~ b) *~ (ofZ 1 /~ ofZ 2)); [lia| |].
    + intros kl Hr _. destruct (ET kl Hr) as (r & E & L & [L1 M1] & [L2 M2] & _ & M4 & _). exists r. split; [exact E|]. split; [exact L|]. intros i x Hx. apply (eq_trans (f_equal (fun l => nth_error l i) (eq_sym M4))) in Hx.
      apply nth_error_pointwise in Hx as (c & b & Hc' & Hb' & ->). exists c, b. split; [exact (M1 _ _ Hc')|]. split; [exact (M2 _ _ Hb')|reflexivity].
    + intros h1 h2 w i x y _ _ Rw Hk Hi (c1 & b1 & C1 & B1 & ->) (c2 & b2 & C2 & B2 & ->). rewrite (M 9 (icConv p) h1 h2 w i c1 c2), (M 26 26 h1 h2 w i b1 b2); auto; change (Z.to_nat 9) with 9%nat; change (Z.to_nat 26) with 26%nat; lia.
  - rewrite <- (Nat.max_id (Z.to_nat (icSpanB p))). apply G; [lia|lia|]. intros kl Hr. destruct (ET kl Hr) as (r & E & L & M1 & M2 & M3 & M4 & M5). eauto.
  - apply remembers_P with (Q := fun kl i y => (Z.to_nat (icLag p) <= i)%nat -> nth_error (closes kl) (i - Z.to_nat (icLag p)) = Some y); [lia| |].
    + intros kl Hr _. destruct (ET kl Hr) as (r & E & L & _ & _ & _ & _ & M5). exists r. split; [exact E|]. split; [exact L|]. intros i x Hx Hi. apply (eq_trans (f_equal (fun l => nth_error l i) (eq_sym M5))) in Hx.
      assert (Hi' : (i < length kl)%nat) by (pose proof (nth_error_Some (firstn (length kl) (repeat (ofZ 0) (Z.to_nat (icLag p)) ++ closes kl)) i) as [Q _]; rewrite firstn_length in Q; specialize (Q ltac:(congruence)); lia).
      rewrite nth_error_firstn' in Hx by exact Hi'. rewrite nth_error_app2, repeat_length in Hx by (rewrite repeat_length; lia). exact Hx.
    + intros h1 h2 w i x y _ _ Rw Hk Hi H1 H2. specialize (H1 ltac:(lia)). specialize (H2 ltac:(lia)). rewrite map_app, nth_error_app2 in H1, H2 by (rewrite map_length; lia).
      rewrite map_length in H1, H2. replace (length h1 + i - Z.to_nat (icLag p) - length h1)%nat with (i - Z.to_nat (icLag p))%nat in H1 by lia. replace (length h2 + i - Z.to_nat (icLag p) - length h2)%nat with (i - Z.to_nat (icLag p))%nat in H2 by lia. congruence.
Qed.
Print Assumptions C95_Ma.
Print Assumptions C95_Vwma.
Print Assumptions C95_CMF.
Print Assumptions C95_Donchian.
Print Assumptions C95_Williams.
Print Assumptions C95_Stochastic.
Print Assumptions C95_EMV.
Print Assumptions C95_MFI.
Print Assumptions C95_Vortex.
Print Assumptions C95_Boll.
Print Assumptions C95_Cci.
Print Assumptions C95_LinearRegCandles.
Print Assumptions C95_Camarilla.
Print Assumptions C95_Ichimoku.
