(** * PropInd13: property C82 (stochastic heat).

    The vocabulary is in SpecInd2.v and SpecTa.v. *)
From Coq Require Import Reals Lra.
From Verif Require Import Base Num Order B64 XReal RSum Rounding FloatLaws Lits Containers Ta TaTools TaElem TaAvg TaStat SpecTa TaRange TaMore Sides Klines
  KlineProofs3 IndBase IndTrend IndChannel IndVolume IndOsc IndTools SpecInd2 IndForms IndForms2 IndForms3 IndFormsSpec IndExact XrMore PropInd1 PropInd12.
Set Implicit Arguments.
Open Scope Z_scope.

Local Notation closes := (map (fun c => cClose c)).
Local Notation highs := (map (fun c => cHigh c)).
Local Notation lows := (map (fun c => cLow c)).

(** ** C82 *)
(** the kinds of average the object knows *)
Definition SMA_KIND : Z := 2.
Definition EMA_KIND : Z := 4.
Definition WMA_KIND : Z := 8.
Definition average_of {N : Num} (kind p : Z) (xs ys : list F) : Prop :=
  if kind =? EMA_KIND then ema_of p xs ys else if kind =? SMA_KIND then Sma p xs = Ok ys else Wma p xs = Ok ys.
(** the lines are not averaged at all when the kind is none of the three *)
Definition line_of {N : Num} (kind p : Z) (xs ys : list F) : Prop :=
  if (kind =? EMA_KIND) || (kind =? SMA_KIND) || (kind =? WMA_KIND) then average_of kind p xs ys else ys = xs.
(** x0 + x1 + ..., from left to right *)
Definition total {N : Num} (xs : list F) : F := match xs with [] => ofZ 0 | x :: t => fold_left fadd t x end.

Lemma Stochastic_length (N : Num) cs hs ls p k d : Stochastic cs hs ls p = Ok (k, d) -> length k = length cs.
Proof.
  unfold Stochastic, Subtract, Divide, MultiplyBy, Add. intros E.
  repeat match type of E with context [bind ?a _] => let e := fresh "E" in destruct a eqn:e; cbn [bind] in E; [|discriminate E] end.
  injection E as <- _.
  repeat match goal with
  | H : map1 _ _ = Ok _ |- _ => apply map1_length in H
  | H : map2 _ _ _ = Ok _ |- _ => apply map2_length in H
  end. destruct (map1 (fun v : F => v *~ ofZ (-1)) a0) as [sb|]; cbn [bind] in E2; [|discriminate]. apply map2_length in E2. congruence.
Qed.
Lemma range_fold A S (f : S -> A -> S) (body : Z -> A -> S -> res S) (l : list A) : forall s,
  (forall i a s, In a l -> body i a s = Ok (f s a)) -> range_ l body s = Ok (fold_left f l s).
Proof.
  intros s H. unfold range_. change 0 with (Z.of_nat 0).
  rewrite (@for_nat _ (fun i => fold_left f (firstn i l) s) 0 (length l)).
  - now rewrite firstn_all.
  - lia.
  - reflexivity.
  - intros i Hi. destruct (nth_error l i) as [a|] eqn:Ea; [|apply nth_error_None in Ea; lia].
    assert (G : get l (Z.of_nat i) = Ok a) by (apply get_ok_iff; rewrite Nat2Z.id; split; [lia|exact Ea]).
    rewrite G. cbn [bind]. rewrite H by (now apply nth_error_In in Ea). f_equal.
    rewrite (firstn_S_nth l a) by lia. rewrite (nth_error_nth l i a Ea), fold_left_app. reflexivity.
Qed.
Section Heat.
Context {N : Num}.
Variables (p : HeatP) (kl : list Candle).
Let cl := tab (length kl) (fun i => cClose (cn kl i)).
Let hi := tab (length kl) (fun i => cHigh (cn kl i)).
Let lo := tab (length kl) (fun i => cLow (cn kl i)).

Lemma heat_slow_av fast slow : heat_slow p fast = Ok slow -> average_of (hMA p) (hSlow p) fast slow.
Proof.
  unfold heat_slow, average_of. change tEMA with EMA_KIND. change tSMA with SMA_KIND.
  destruct (hMA p =? EMA_KIND); [|destruct (hMA p =? SMA_KIND); exact (fun H => H)].
  intros E. destruct (@Ema_of N (hSlow p) fast) as (ys & E' & Q). congruence.
Qed.
Lemma getStoch_line i l : getStoch p cl hi lo i = Ok l ->
  length l = length kl /\ exists pos d, Stochastic cl hi lo (i * hInc p) = Ok (pos, d) /\ line_of (hMA p) (hFast p) pos l.
Proof.
  unfold getStoch. destruct (Stochastic cl hi lo (i * hInc p)) as [[k d]|] eqn:E; cbn [bind]; [|discriminate].
  assert (Lk : length k = length kl).
  { apply Stochastic_length in E. unfold cl in E. now rewrite tab_length in E. }
  intros H. assert (Q : line_of (hMA p) (hFast p) k l /\ length l = length k).
  { unfold line_of, average_of. change tEMA with EMA_KIND in H. change tSMA with SMA_KIND in H. change tWMA with WMA_KIND in H.
    destruct (hMA p =? EMA_KIND); cbn [orb].
    - destruct (@Ema_of N (hFast p) k) as (ys & E' & Q). assert (l = ys) as -> by congruence. split; [exact Q|]. apply Q.
    - destruct (hMA p =? SMA_KIND); cbn [orb]; [split; [exact H|now apply Sma_length in H]|].
      destruct (hMA p =? WMA_KIND); [split; [exact H|now apply Wma_length in H]|]. injection H as <-. auto. }
  destruct Q as [Q L]. split; [congruence|]. exists k, d. auto.
Qed.
Lemma heat_lines_inv lines : heat_lines p cl hi lo = Ok lines ->
  length lines = 28%nat /\ forall k l, nth_error lines k = Some l -> getStoch p cl hi lo (Z.of_nat k + 1) = Ok l.
Proof.
  unfold heat_lines. intros E.
  apply for_inv_ok with (I := fun i acc => Z.of_nat (length acc) = i - 1 /\ forall k l, nth_error acc k = Some l -> getStoch p cl hi lo (Z.of_nat k + 1) = Ok l) in E.
  - destruct E as [L H]. split; [lia|exact H].
  - lia.
  - split; [reflexivity|]. intros [|k] l H; discriminate.
  - intros i acc acc' Hi [L H] E1. destruct (getStoch p cl hi lo i) as [s|] eqn:Es; cbn [bind] in E1; [|discriminate]. injection E1 as <-.
    rewrite app_length. cbn [length]. split; [lia|]. intros k l Hk. destruct (Nat.lt_ge_cases k (length acc)) as [Hl|Hl].
    + rewrite nth_error_app1 in Hk by exact Hl. now apply H.
    + rewrite nth_error_app2 in Hk by exact Hl. destruct (k - length acc)%nat as [|q] eqn:Eq; [|destruct q; discriminate].
      cbn [nth_error] in Hk. injection Hk as <-. replace (Z.of_nat k + 1) with i by lia. exact Es.
Qed.
Definition heatF (lines : list (list F)) (i : nat) : F := total (map (fun l => nth i l fzero) lines) /~ ofZ (hPlot p) /~ ofZ 100 *~ ofZ (hPlot p).
Lemma heat_sum_ok lines i : Forall (fun l => length l = length kl) lines -> (i < length kl)%nat ->
  heat_sum lines (Z.of_nat i) = Ok (total (map (fun l => nth i l fzero) lines)).
Proof.
  intros Hl Hi. destruct lines as [|l0 rest]; [reflexivity|]. inversion Hl as [|? ? L0 Lr]; subst. cbn [heat_sum map total].
  rewrite (@get_nat _ l0 i fzero) by lia. cbn [bind].
  rewrite (@range_fold _ _ (fun s l => s +~ nth i l fzero)).
  - f_equal. generalize (nth i l0 fzero). induction rest as [|l rest IH]; intros s; [reflexivity|]. cbn [fold_left map]. apply IH.
    + constructor; [exact L0|now inversion Lr].
    + now inversion Lr.
  - intros j l s Hj. rewrite Forall_forall in Lr. rewrite (@get_nat _ l i fzero) by (rewrite Lr by exact Hj; exact Hi). reflexivity.
Qed.
Lemma heat_inv fast slow : heat p (len kl) cl hi lo = Ok (fast, slow) -> exists lines,
  heat_lines p cl hi lo = Ok lines /\ fast = tab (length kl) (heatF lines) /\ (kl <> [] -> heat_slow p fast = Ok slow).
Proof.
  unfold heat. destruct (heat_lines p cl hi lo) as [lines|] eqn:El; cbn [bind]; [|discriminate].
  rewrite make_len. cbn [bind]. intros E. exists lines. split; [reflexivity|].
  assert (Ll : Forall (fun l => length l = length kl) lines).
  { apply Forall_forall. intros l Hl. apply In_nth_error in Hl as [k Hk]. apply (heat_lines_inv El) in Hk. now apply getStoch_line in Hk. }
  apply for_inv_ok with (I := fun i st => fst st = partial fzero (heatF lines) (length kl) (Z.to_nat i) /\ (0 < i -> heat_slow p (fst st) = Ok (snd st))) in E.
  - destruct E as [E1 E2]. cbn [fst snd] in E1, E2. unfold len in E1. rewrite Nat2Z.id, partial_full in E1. split; [exact E1|].
    intros Hk. apply E2. apply len_pos. exact Hk.
  - apply len_nonneg.
  - cbn [fst snd Z.to_nat]. rewrite partial_0. split; [reflexivity|lia].
  - intros i [f0 s0] [f1 s1] Hi [E1 E2]. cbn [fst snd] in *. unfold len in Hi.
    rewrite <- (Z2Nat.id i) by lia. set (j := Z.to_nat i) in *. rewrite heat_sum_ok by (try exact Ll; lia). cbn [bind]. rewrite E1.
    rewrite (@partial_set _ fzero (heatF lines) (length kl) j) by (try reflexivity; lia). cbn [bind].
    destruct (heat_slow p (partial fzero (heatF lines) (length kl) (S j))) as [sl|] eqn:Es; cbn [bind]; [|discriminate].
    intros Q. injection Q as <- <-. replace (Z.to_nat (Z.of_nat j + 1)) with (S j) by lia. split; [reflexivity|]. intros _. exact Es.
Qed.
End Heat.

(** The fast line is the sum of the 28 lines over 100 (the plot number divides and multiplies it in between); line k is the position
    of the close between the lowest low and the highest high of the last k*increment bars (C25), averaged; the slow line is an
    average of the fast line. *)
Theorem C82_formula (N : Num) (p : HeatP) (kl : list Candle) (rows : list (row HeatV)) : kl <> [] -> rows_of I_StochasticHeat p kl = Ok rows ->
  exists lines : list (list F), length lines = 28%nat /\
    (forall k l, nth_error lines k = Some l -> length l = length kl /\
       exists pos d, Stochastic (closes kl) (highs kl) (lows kl) ((Z.of_nat k + 1) * hInc p) = Ok (pos, d) /\ line_of (hMA p) (hFast p) pos l) /\
    length rows = length kl /\
    (forall i r xs, nth_error rows i = Some r -> map (fun l => nth_error l i) lines = map Some xs ->
       hvFast (rVal r) = total xs /~ ofZ (hPlot p) /~ ofZ 100 *~ ofZ (hPlot p)) /\
    average_of (hMA p) (hSlow p) (column (fun v => hvFast v) rows) (column (fun v => hvSlow v) rows).
Proof.
  intros Hk. unfold rows_of, GetData, I_StochasticHeat. cbn [len length Z.of_nat Z.eqb Calculation Val Param]. unfold heat_calc. rewrite OHLC_T.
  cbn [bind oClose oHigh oLow OH]. destruct (heat _ _ _ _ _) as [[fast slow]|] eqn:E; cbn [bind]; [|discriminate].
  apply heat_inv in E as (lines & El & -> & Es). specialize (Es Hk).
  destruct (@heat_lines_inv N p kl lines El) as [L28 HL]. apply heat_slow_av in Es as Av.
  assert (Lsl : length slow = length kl).
  { unfold heat_slow in Es. destruct (_ =? _); [apply Ema_length in Es|destruct (_ =? _); [apply Sma_length in Es|apply Wma_length in Es]]; now rewrite tab_length in Es. }
  unfold len. rewrite (@append_rows_T _ _ _ _ _ _ (fun i => mkHeatV (heatF p lines i) (nth i slow fzero)) _ eq_refl).
  - cbn [app]. intros Q. injection Q as <-. exists lines. split; [exact L28|]. rewrite !cmap. split.
    { intros k l Hl. apply HL in Hl. apply getStoch_line in Hl. exact Hl. }
    rewrite tab_length, !column_T. split; [reflexivity|]. cbn [hvFast hvSlow]. split.
    + intros i r xs Hi Hx. apply tab_some in Hi as [Hi ->]. cbn [rVal hvFast]. unfold heatF.
      assert (Ex : map (fun l => nth i l fzero) lines = xs); [|now rewrite Ex].
      revert xs Hx. clear. induction lines as [|l lines IH]; intros [|x xs] Hx; cbn [map] in *; try discriminate; [reflexivity|].
      injection Hx as H1 H2. f_equal; [now apply nth_error_nth|now apply IH].
    + rewrite <- Lsl, <- tab_of_list, Lsl. exact Av.
  - intros. now apply time_at_T.
  - intros i Hi. rewrite get_tab by exact Hi. cbn [bind]. rewrite (@get_nat _ slow i fzero) by lia. reflexivity.
Qed.
Print Assumptions C82_formula.

(** ** Range *)
Definition in_bar (c : Candle (N := XR)) : Prop := exists h l x, cHigh c = Fin h /\ cLow c = Fin l /\ cClose c = Fin x /\ (l <= x <= h)%R.
Section Exact.
Local Open Scope R_scope.
Lemma wmean_range p (xs : list R) i M : (1 <= p)%nat -> (p <= S i)%nat -> (i < length xs)%nat -> (forall k, (k < length xs)%nat -> 0 <= nth k xs 0 <= M) ->
  0 <= wmean (window xs i p) <= M.
Proof.
  intros Hp Hi Hl B. rewrite (@window_full _ xs i p 0) by assumption. rewrite wmean_tab.
  assert (P : 1 <= INR p) by (change 1 with (INR 1); apply le_INR; lia).
  assert (D : 0 < INR p * (INR p + 1) / 2) by nra.
  assert (B' : forall j, (j < p)%nat -> 0 <= nth (S i - p + j) xs 0 <= M) by (intros j Hj; apply B; lia).
  split.
  - apply Rmult_le_pos; [|left; now apply Rinv_0_lt_compat]. apply sumf_nonneg. intros k Hk. apply Rmult_le_pos; [apply pos_INR|now apply B'].
  - apply (Rmult_le_reg_r (INR p * (INR p + 1) / 2)); [exact D|]. unfold Rdiv at 1. rewrite Rmult_assoc, Rinv_l, Rmult_1_r by lra.
    rewrite <- sumf_succ, <- sumf_scal. apply sumf_le. intros k Hk. rewrite (Rmult_comm M). apply Rmult_le_compat_l; [apply pos_INR|now apply B'].
Qed.
Definition avg (kind p : Z) (xs : list (@F XR)) : res (list (@F XR)) :=
  if (kind =? tEMA)%Z then Ema (N := XR) p xs else if (kind =? tSMA)%Z then Sma (N := XR) p xs else Wma (N := XR) p xs.
Lemma avg_range kind p (xs : list R) M : (1 <= p)%Z -> (kind = tEMA \/ kind = tSMA \/ p <= len xs + 1)%Z -> 0 <= M -> (forall k, (k < length xs)%nat -> 0 <= nth k xs 0 <= M) ->
  exists ys, avg kind p (fins xs) = Ok (fins ys) /\ length ys = length xs /\ forall k, (k < length ys)%nat -> 0 <= nth k ys 0 <= M.
Proof.
  intros Hp Hk HM B. unfold avg. destruct (Z.eqb_spec kind tEMA) as [E1|E1].
  - exists (tab (length xs) (ema (ema_a p) (fun k => nth k xs 0))). rewrite tab_length. split; [|split; [reflexivity|]].
    + rewrite Ema_exact by exact Hp. refine (f_equal (@Ok (list (@F XR))) _). now apply tab_fins.
    + intros k Hk'. rewrite tab_nth by exact Hk'. apply ema_bounds; [pose proof (ema_a_range Hp); lra|]. intros j Hj. apply B. lia.
  - destruct (Z.eqb_spec kind tSMA) as [E2|E2].
    + exists (tab (length xs) (fun i => mean (window xs i (Z.to_nat p)))). rewrite tab_length. split; [|split; [reflexivity|]].
      * rewrite <- (Z2Nat.id p) at 1 by lia. rewrite Sma_exact by lia. refine (f_equal (@Ok (list (@F XR))) _). now apply tab_fins.
      * intros k Hk'. rewrite tab_nth by exact Hk'. apply mean_bounds; [apply window_not_nil; [exact Hk'|lia]|].
        intros x Hx. apply window_In in Hx. apply (In_nth _ _ 0) in Hx as (j & Hj & <-). now apply B.
    + destruct Hk as [?|[?|Hk]]; [congruence|congruence|].
      exists (tab (length xs) (fun i => if (S i <? Z.to_nat p)%nat then 0 else wmean (window xs i (Z.to_nat p)))). rewrite tab_length. split; [|split; [reflexivity|]].
      * rewrite <- (Z2Nat.id p) at 1 by lia. rewrite Wma_exact by (unfold len in Hk; lia). refine (f_equal (@Ok (list (@F XR))) _). apply tab_fins. intros j Hj. unfold wma_out.
        destruct (_ <? _)%nat; reflexivity.
      * intros k Hk'. rewrite tab_nth by exact Hk'. destruct (Nat.ltb_spec (S k) (Z.to_nat p)); [lra|]. apply wmean_range; [lia|lia|exact Hk'|exact B].
Qed.
Lemma total_fins l : total (N := XR) (fins l) = Fin (Rsum l).
Proof.
  destruct l as [|x l]; [reflexivity|]. cbn [total fins map]. change (Rsum (x :: l)) with (x + Rsum l). revert x. induction l as [|y l IH]; intros x; [cbn; now rewrite Rplus_0_r|].
  cbn [map fold_left]. change (@fadd XR (Fin x) (Fin y)) with (@Fin (x + y)). rewrite IH. f_equal. change (Rsum (y :: l)) with (y + Rsum l). lra.
Qed.
Variables (p : HeatP) (kl : list (Candle (N := XR))).
Hypothesis Hbar : Forall in_bar kl.
Hypothesis Hinc : (1 <= hInc p)%Z.
Hypothesis Hplot : hPlot p <> 0%Z.
Hypothesis Hfast : (1 <= hFast p)%Z.
Hypothesis Hslow : (1 <= hSlow p)%Z.
Hypothesis Hkind : hMA p = EMA_KIND \/ hMA p = SMA_KIND \/ (hFast p <= len kl + 1 /\ hSlow p <= len kl + 1)%Z.
Let cl := tab (length kl) (fun i => cClose (cn kl i)).
Let hi := tab (length kl) (fun i => cHigh (cn kl i)).
Let lo := tab (length kl) (fun i => cLow (cn kl i)).
Definition val (x : @F XR) : R := match x with Fin r => r | _ => 0 end.
Definition good_line M (l : list (@F XR)) := exists ys, l = fins ys /\ length ys = length kl /\ forall k, (k < length kl)%nat -> 0 <= nth k ys 0 <= M.

Lemma bar_cn i : (i < length kl)%nat -> in_bar (cn kl i).
Proof. intros Hi. rewrite Forall_forall in Hbar. apply Hbar. unfold cn. now apply nth_In. Qed.
Lemma lift (f : Candle (N := XR) -> @F XR) : (forall i, (i < length kl)%nat -> exists r, f (cn kl i) = Fin r) ->
  tab (length kl) (fun i => f (cn kl i)) = fins (tab (length kl) (fun i => val (f (cn kl i)))).
Proof. intros H. apply tab_fins. intros j Hj. destruct (H j Hj) as [r ->]. reflexivity. Qed.
Lemma stoch_good i : (1 <= i)%Z -> exists l d, Stochastic (N := XR) cl hi lo (i * hInc p) = Ok (l, d) /\ good_line 100 l.
Proof.
  intros Hi. unfold cl, hi, lo.
  rewrite (lift (fun c => cClose c)), (lift (fun c => cHigh c)), (lift (fun c => cLow c));
    [|intros j Hj; destruct (bar_cn Hj) as (h & l & x & E1 & E2 & E3 & _); eauto ..].
  rewrite <- (Z2Nat.id (i * hInc p)) by nia.
  destruct (@Stochastic_bounds (tab (length kl) (fun i => val (cClose (cn kl i)))) (tab (length kl) (fun i => val (cHigh (cn kl i)))) (tab (length kl) (fun i => val (cLow (cn kl i)))) (Z.to_nat (i * hInc p))) as (k & d & E & B).
  - assert (1 <= i * hInc p)%Z by nia. lia.
  - now rewrite !tab_length.
  - now rewrite !tab_length.
  - rewrite tab_length. intros j Hj. rewrite !tab_nth by exact Hj. destruct (bar_cn Hj) as (h & l & x & E1 & E2 & E3 & E4). rewrite E1, E2, E3. exact E4.
  - rewrite tab_length in E, B. do 2 eexists. split; [exact E|]. exists (tab (length kl) k). rewrite tab_length.
    split; [now apply tab_fins|]. split; [reflexivity|]. intros j Hj. rewrite tab_nth by exact Hj. now apply B.
Qed.
Lemma line_good i : (1 <= i)%Z -> exists l, getStoch (N := XR) p cl hi lo i = Ok l /\ good_line 100 l.
Proof.
  intros Hi. destruct (stoch_good Hi) as (l & d & E & (ys & -> & L & B)). unfold getStoch. rewrite E. cbn [bind].
  destruct (@avg_range (hMA p) (hFast p) ys 100) as (zs & Ez & Lz & Bz); [exact Hfast| |lra|rewrite L; exact B|].
  { unfold len in *. rewrite L. change tEMA with EMA_KIND. change tSMA with SMA_KIND. tauto. }
  unfold avg in Ez. destruct (hMA p =? tEMA)%Z; [|destruct (hMA p =? tSMA)%Z; [|destruct (hMA p =? tWMA)%Z]].
  1, 2, 3: exists (fins zs); split; [exact Ez|]; exists zs; split; [reflexivity|]; split; [congruence|]; rewrite <- L, <- Lz; exact Bz.
  exists (fins ys). split; [reflexivity|]. exists ys. auto.
Qed.
Lemma lines_good : exists lines, heat_lines (N := XR) p cl hi lo = Ok lines /\ length lines = 28%nat /\ Forall (good_line 100) lines.
Proof.
  unfold heat_lines.
  destruct (@for_inv _ (fun i (acc : list (list (@F XR))) => Z.of_nat (length acc) = (i - 1)%Z /\ Forall (good_line 100) acc) 1 29
    (fun i acc => s <- getStoch (N := XR) p cl hi lo i ;; Ok (acc ++ [s])) []) as (r & E & L & G).
  - lia.
  - split; [reflexivity|constructor].
  - intros i acc Hi [L G]. destruct (@line_good i ltac:(lia)) as (l & El & Gl). rewrite El. cbn [bind]. eexists. split; [reflexivity|].
    rewrite app_length. cbn [length]. split; [lia|]. apply Forall_app. split; [exact G|]. constructor; [exact Gl|constructor].
  - exists r. split; [exact E|]. split; [lia|exact G].
Qed.
Lemma heatF_good lines i : length lines = 28%nat -> Forall (good_line 100) lines -> (i < length kl)%nat ->
  exists a, heatF (N := XR) p lines i = Fin a /\ 0 <= a <= 28.
Proof.
  intros L G Hi. assert (X : exists xs, map (fun l => nth i l (@fzero XR)) lines = fins xs /\ length xs = length lines /\ forall x, In x xs -> 0 <= x <= 100).
  { clear L. induction G as [|l lines (ys & -> & Ly & B) _ (xs & E & Lx & Bx)]; [exists []; split; [reflexivity|split; [reflexivity|easy]]|].
    exists (nth i ys 0 :: xs). cbn [map length]. split; [|split].
    - change (fins (nth i ys 0 :: xs)) with (Fin (nth i ys 0) :: fins xs). rewrite <- E. f_equal. rewrite fins_nth0. reflexivity.
    - now rewrite Lx.
    - intros x [<-|Hx]; [now apply B|now apply Bx]. }
  destruct X as (xs & E & Lx & Bx). unfold heatF. rewrite E, total_fins.
  pose proof (Rsum_bounds xs Bx) as RB. rewrite Lx, L in RB.
  assert (NZ : IZR (hPlot p) <> 0) by (intros Q; apply Hplot; now apply eq_IZR).
  exists (Rsum xs / 100). split.
  - rewrite !xr_ofZ, xr_div by exact NZ. rewrite xr_div by lra. rewrite xr_mul. f_equal. field. exact NZ.
  - replace (INR 28) with 28 in RB by (cbn; lra). lra.
Qed.
Theorem C82_range : exists rows : list (row (HeatV (N := XR))), rows_of (N := XR) I_StochasticHeat p kl = Ok rows /\ length rows = length kl /\
  forall r, In r rows -> exists a b, hvFast (rVal r) = Fin a /\ hvSlow (rVal r) = Fin b /\ 0 <= a <= 28 /\ 0 <= b <= 28.
Proof.
  destruct lines_good as (lines & El & L28 & G).
  set (g := fun i => val (heatF (N := XR) p lines i)).
  assert (HF : forall i, (i < length kl)%nat -> heatF (N := XR) p lines i = Fin (g i) /\ 0 <= g i <= 28).
  { intros i Hi. destruct (heatF_good L28 G Hi) as (a & E & B). unfold g. rewrite E. auto. }
  assert (SL : forall j, (j <= length kl)%nat -> exists zs, heat_slow (N := XR) p (partial (@fzero XR) (heatF (N := XR) p lines) (length kl) j) = Ok (fins zs) /\
    length zs = length kl /\ forall k, (k < length kl)%nat -> 0 <= nth k zs 0 <= 28).
  { intros j Hj. set (xs := partial 0 g (length kl) j).
    assert (Ex : partial (@fzero XR) (heatF (N := XR) p lines) (length kl) j = fins xs).
    { unfold xs, partial, fins. rewrite map_app, map_repeat. f_equal. rewrite tabmap. apply tab_ext. intros k Hk. apply HF. lia. }
    assert (Lx : length xs = length kl) by (unfold xs; now apply partial_length).
    destruct (@avg_range (hMA p) (hSlow p) xs 28) as (zs & Ez & Lz & Bz); [exact Hslow| |lra| |].
    - unfold len in *. rewrite Lx. change tEMA with EMA_KIND. change tSMA with SMA_KIND. tauto.
    - intros k Hk. unfold xs, partial. destruct (Nat.lt_ge_cases k j) as [H|H].
      + rewrite app_nth1 by (now rewrite tab_length). rewrite tab_nth by exact H. apply HF. lia.
      + rewrite app_nth2 by (now rewrite tab_length). rewrite nth_repeat. lra.
    - exists zs. rewrite Ex. split; [exact Ez|]. split; [congruence|]. rewrite <- Lx, <- Lz. exact Bz. }
  assert (Ll : Forall (fun l : list (@F XR) => length l = length kl) lines).
  { eapply Forall_impl; [|exact G]. intros l (ys & -> & Ly & _). now rewrite fins_length. }
  assert (HT : exists zs, heat (N := XR) p (len kl) cl hi lo = Ok (tab (length kl) (heatF (N := XR) p lines), fins zs) /\ length zs = length kl /\
    forall k, (k < length kl)%nat -> 0 <= nth k zs 0 <= 28).
  { unfold heat. rewrite El. cbn [bind]. rewrite make_len. cbn [bind].
    match goal with |- exists zs, for_ ?l ?h ?b ?s = _ /\ _ => destruct (@for_inv _ (fun i st => fst st = partial (@fzero XR) (heatF (N := XR) p lines) (length kl) (Z.to_nat i) /\
      exists zs, snd st = fins zs /\ length zs = length kl /\ forall k, (k < length kl)%nat -> 0 <= nth k zs 0 <= 28) l h b s) as ([f1 s1] & E & E1 & zs & E2 & Lz & Bz) end.
    - apply len_nonneg.
    - cbn [fst snd Z.to_nat]. rewrite partial_0. split; [reflexivity|]. exists (repeat 0 (length kl)).
      split; [unfold fins; now rewrite map_repeat|]. split; [apply repeat_length|]. intros k Hk. rewrite nth_repeat. lra.
    - intros i [f0 s0] Hi [E1 _]. cbn [fst snd] in *. unfold len in Hi. rewrite <- (Z2Nat.id i) by lia. set (j := Z.to_nat i) in *.
      rewrite (@heat_sum_ok XR kl lines j Ll) by lia. cbn [bind]. rewrite E1.
      rewrite (@partial_set _ (@fzero XR) (heatF (N := XR) p lines) (length kl) j) by (try reflexivity; lia). cbn [bind].
      destruct (SL (S j) ltac:(lia)) as (zs & Ez & Lz & Bz). rewrite Ez. cbn [bind]. eexists. split; [reflexivity|]. cbn [fst snd].
      split; [f_equal; lia|]. exists zs. auto.
    - rewrite E. cbn [fst snd] in *. unfold len in E1. rewrite Nat2Z.id, partial_full in E1. exists zs. rewrite E1, E2. auto. }
  destruct HT as (zs & HT & Lz & Bz).
  exists (tab (length kl) (fun i => mkRow (tm kl i) (mkHeatV (N := XR) (Fin (g i)) (Fin (nth i zs 0))))). split; [|split].
  - unfold rows_of, GetData, I_StochasticHeat. cbn [len length Z.of_nat Z.eqb Calculation Val Param]. unfold heat_calc. rewrite OHLC_T.
    cbn [bind oClose oHigh oLow OH]. fold cl hi lo. rewrite HT. cbn [bind]. unfold len.
    rewrite (@append_rows_T XR _ kl _ _ _ (fun i => mkHeatV (N := XR) (Fin (g i)) (Fin (nth i zs 0))) _ eq_refl).
    + reflexivity.
    + intros. now apply time_at_T.
    + intros i Hi. rewrite get_tab by exact Hi. cbn [bind]. rewrite (@get_nat _ (fins zs) i (@fzero XR)) by (rewrite fins_length, Lz; exact Hi).
      cbn [bind]. rewrite fins_nth0. rewrite (proj1 (HF i Hi)). reflexivity.
  - apply tab_length.
  - intros r Hr. apply In_nth_error in Hr as [i Hi]. apply tab_some in Hi as [Hi ->]. cbn [rVal hvFast hvSlow].
    exists (g i), (nth i zs 0). split; [reflexivity|]. split; [reflexivity|]. split; [now apply HF|now apply Bz].
Qed.
End Exact.
Print Assumptions C82_range.
(** With weighted averages, fewer candles than the periods allow panic. *)
Theorem C82_wma_panics (N : Num) (p : HeatP) (kl : list Candle) : kl <> [] -> hMA p = WMA_KIND ->
  len kl + 1 < hFast p \/ len kl + 1 < hSlow p -> rows_of I_StochasticHeat p kl = Panic.
Proof.
  intros Hk Hm H. destruct (rows_of I_StochasticHeat p kl) as [rows|] eqn:E; [exfalso|reflexivity].
  destruct (@C82_formula N p kl rows Hk E) as (lines & L28 & HL & Lr & _ & Av). destruct H as [H|H].
  - destruct (nth_error lines 0) as [l|] eqn:E0; [|apply nth_error_None in E0; lia]. apply HL in E0 as (_ & pos & d & ES & Ln).
    unfold line_of in Ln. rewrite Hm in Ln. cbn [Z.eqb EMA_KIND SMA_KIND WMA_KIND Pos.eqb orb] in Ln. unfold average_of in Ln. cbn [Z.eqb EMA_KIND SMA_KIND WMA_KIND Pos.eqb] in Ln.
    apply Stochastic_length in ES. rewrite map_length in ES. rewrite Wma_panic_short in Ln; [discriminate|]. unfold len in *. lia.
  - unfold average_of in Av. rewrite Hm in Av. cbn [Z.eqb EMA_KIND SMA_KIND WMA_KIND Pos.eqb] in Av.
    rewrite Wma_panic_short in Av; [discriminate|]. assert (Q : len (column (fun v => hvFast v) rows) = len kl) by (unfold len, column; f_equal; exact (eq_trans (map_length _ rows) Lr)).
    rewrite Q. exact H.
Qed.
Print Assumptions C82_wma_panics.
Example C82_hyp :
  rmap (map (fun r => (hvFast (rVal r) ==~ fz 14, hvSlow (rVal r) ==~ fz 14))) (rows_of (N := EX) I_StochasticHeat (mkHeatP 1 1 1 28 EMA_KIND)
    [kd 2 3 1 2 1 60; kd 2 3 1 2 1 120; kd 2 3 1 3 1 180]) = Ok [(true, true); (true, true); (false, false)] /\
  rmap (fun _ => tt) (rows_of (N := EX) I_StochasticHeat (mkHeatP 1 4 1 28 WMA_KIND) [kd 2 3 1 2 1 60]) = Panic.
Proof. split; vm_compute; reflexivity. Qed.
