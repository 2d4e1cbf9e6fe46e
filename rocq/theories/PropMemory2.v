(** * PropMemory2: property C95, continued: the bounds are tight, averages that
    never forget, and what is left of the property in float64. *)
From Coq Require Import Reals Lra ZArith Lia Bool List PeanoNat.
From Verif Require Import Base Num XReal Order SpecNum B64 Lits Ta TaTools TaAvg SpecTa Klines RSum IndBase IndTrend IndTools IndForms IndExact IndFormsSpec SpecInd2 SpecBar SpecMemory PropFloat PropMemory.
Import ListNotations.
Set Implicit Arguments.
Open Scope Z_scope.
Local Notation kline := (list (Candle (N := XR))).

Lemma Rabs_between x y : (Rabs x <= y)%R -> (- y <= x <= y)%R.
Proof. unfold Rabs. destruct (Rcase_abs x); lra. Qed.

(** a candle all of whose prices are [x] *)
Definition at_price (x : R) : Candle (N := XR) := mkCandle (N := XR) (Fin 0) 0 (Fin x) (Fin x) (Fin x) (Fin x) (Fin 1) (Fin 0) false 0.
Lemma at_price_real xs : real_candles (map at_price xs).
Proof.
  exists (map (fun x => mkBar x x x x 1%R) xs). induction xs as [|x xs IH]; [constructor|]. constructor; [|exact IH]. repeat split.
Qed.

(** one candle less is not enough *)
Theorem C95_Sma_needs_every_candle p : (2 <= p)%nat -> ~ remembers I_Sma (Z.of_nat p) (fun v => v) (p - 1).
Proof.
  intros Hp H. specialize (H (map at_price [1%R]) (map at_price [0%R]) (map at_price (repeat 0%R (p - 1))) (at_price_real _) (at_price_real _) (at_price_real _)).
  rewrite map_length, repeat_length in H. specialize (H (le_n _)). destruct H as (r1 & r2 & E1 & E2 & _ & _ & E).
  rewrite Sma_ind_T in E1, E2 by lia. injection E1 as <-. injection E2 as <-. rewrite Nat2Z.id in E. unfold column in E. rewrite !tabmap in E. cbn [rVal] in E.
  apply (f_equal (fun l => nth 0 l (Fin 0))) in E. rewrite !nth_skipn in E. 
  assert (L : S (length (map at_price (repeat 0%R (p - 1)))) = p) by (rewrite map_length, repeat_length; lia).
  change (length (map at_price [1%R])) with 1%nat in E. change (length (map at_price [0%R])) with 1%nat in E. change (map at_price [1%R]) with [at_price 1] in E. change (map at_price [0%R]) with [at_price 0] in E.
  rewrite !L in E. rewrite !tab_nth in E by lia.
  assert (G : forall x, smaF (N := XR) p (fun i => cClose (cn (at_price x :: map at_price (repeat 0%R (p - 1))) i)) (1 + (p - 1 - 1) + 0) = Fin (x / INR p)).
  { intros x. rewrite (@smaF_exact p _ (fun i => if (i =? 0)%nat then x else 0%R) p); [|lia|lia|].
    - f_equal. unfold mean. replace (1 + (p - 1 - 1) + 0)%nat with (p - 1)%nat by lia.
      assert (W : window (tab p (fun i : nat => if (i =? 0)%nat then x else 0%R)) (p - 1) p = x :: repeat 0%R (p - 1)).
      { unfold window. replace (S (p - 1)) with p by lia. rewrite Nat.sub_diag. cbn [skipn]. rewrite firstn_all2 by (rewrite tab_length; lia).
        destruct p as [|q]; [lia|]. cbn [Nat.sub]. rewrite Nat.sub_0_r. change (tab (S q) ?f) with (map f (seq 0 (S q))). cbn [seq map Nat.eqb]. f_equal.
        rewrite <- seq_shift, map_map. cbn [Nat.eqb]. clear. generalize 0%nat. induction q as [|q IH]; intros s; [reflexivity|]. cbn [seq map repeat]. f_equal. apply IH. }
      rewrite W. cbn [length]. rewrite repeat_length.
      assert (Z0 : forall n, Rsum (repeat 0%R n) = 0%R) by (induction n as [|n IH]; [reflexivity|]; change (Rsum (repeat 0%R (S n))) with (0 + Rsum (repeat 0%R n))%R; rewrite IH; lra).
      change (Rsum (x :: repeat 0%R (p - 1))) with (x + Rsum (repeat 0%R (p - 1)))%R. rewrite Z0. replace (S (p - 1)) with p by lia. f_equal. lra.
    - intros i Hi. destruct i as [|i]; [reflexivity|]. cbn [Nat.eqb]. unfold cn. cbn [nth].
      assert (Q : nth i (map at_price (repeat 0%R (p - 1))) (blank 0) = at_price 0)
        by (rewrite (nth_indep _ (blank 0) (at_price 0)) by (rewrite map_length, repeat_length; lia); rewrite map_nth; f_equal; now rewrite nth_repeat).
      rewrite Q. reflexivity. }
  rewrite !G in E. injection E as E. assert (0 < INR p)%R by (apply lt_0_INR; lia). unfold Rdiv in E. rewrite Rmult_0_l, Rmult_1_l in E. apply (Rinv_neq_0_compat (INR p)); lra.
Qed.
Print Assumptions C95_Sma_needs_every_candle.

(** ** The exponential average *)
Lemma ema_step a f1 f2 n1 n2 m : (forall j, (j < m)%nat -> f1 (n1 + j)%nat = f2 (n2 + j)%nat) -> (1 <= n1)%nat -> (1 <= n2)%nat ->
  forall i, (i < m)%nat -> (ema a f1 (n1 + i) - ema a f2 (n2 + i) = (1 - a) ^ S i * (ema a f1 (n1 - 1) - ema a f2 (n2 - 1)))%R.
Proof.
  intros H H1 H2. induction i as [|i IH]; intros Hi.
  - specialize (H 0%nat Hi). rewrite !Nat.add_0_r in *. destruct n1 as [|n1]; [lia|]. destruct n2 as [|n2]; [lia|]. cbn [ema Nat.sub]. rewrite !Nat.sub_0_r. rewrite H. cbn [pow]. ring.
  - specialize (IH ltac:(lia)). specialize (H (S i) Hi). rewrite <- !plus_n_Sm in *. cbn [ema]. rewrite H.
    change ((1 - a) ^ S (S i))%R with ((1 - a) * (1 - a) ^ S i)%R. rewrite Rmult_assoc, <- IH. ring.
Qed.
(** Two non-empty histories: their influence shrinks by the factor 1 - 2/(p+1) with every common candle, and is never lost. *)
Theorem C95_Ema_never_forgets (p : Z) (h1 h2 w : list R) : 1 <= p -> h1 <> [] -> h2 <> [] ->
  exists y1 y2, Ema (N := XR) p (fins (h1 ++ w)) = Ok (fins y1) /\ Ema (N := XR) p (fins (h2 ++ w)) = Ok (fins y2) /\
    length y1 = length (h1 ++ w) /\ length y2 = length (h2 ++ w) /\
    (forall i, (i < length w)%nat -> nth (length h1 + i) y1 0 - nth (length h2 + i) y2 0 = (1 - 2 / (IZR p + 1)) ^ S i * (nth (length h1 - 1) y1 0 - nth (length h2 - 1) y2 0))%R /\
    (2 <= p -> nth (length h1 - 1) y1 0%R <> nth (length h2 - 1) y2 0%R -> forall i, (i < length w)%nat -> nth (length h1 + i) y1 0%R <> nth (length h2 + i) y2 0%R).
Proof.
  intros Hp H1 H2. rewrite !Ema_exact by exact Hp.
  set (f1 := fun k => nth k (h1 ++ w) 0%R). set (f2 := fun k => nth k (h2 ++ w) 0%R).
  exists (tab (length (h1 ++ w)) (ema (ema_a p) f1)), (tab (length (h2 ++ w)) (ema (ema_a p) f2)).
  unfold fins. rewrite !tabmap, !tab_length. split; [reflexivity|]. split; [reflexivity|]. split; [reflexivity|]. split; [reflexivity|].
  assert (L1 : (1 <= length h1)%nat) by (destruct h1; [congruence|cbn; lia]). assert (L2 : (1 <= length h2)%nat) by (destruct h2; [congruence|cbn; lia]).
  assert (E : forall i, (i < length w)%nat -> (nth (length h1 + i) (tab (length (h1 ++ w)) (ema (ema_a p) f1)) 0 - nth (length h2 + i) (tab (length (h2 ++ w)) (ema (ema_a p) f2)) 0 =
      (1 - 2 / (IZR p + 1)) ^ S i * (nth (length h1 - 1) (tab (length (h1 ++ w)) (ema (ema_a p) f1)) 0 - nth (length h2 - 1) (tab (length (h2 ++ w)) (ema (ema_a p) f2)) 0))%R).
  { intros i Hi. rewrite !app_length. rewrite !tab_nth by lia. apply (@ema_step (ema_a p) f1 f2 (length h1) (length h2) (length w)); auto. intros j Hj. unfold f1, f2. rewrite !app_nth2 by lia. f_equal. lia. }
  split; [exact E|]. intros H2p Hne i Hi Q. specialize (E i Hi). rewrite Q in E.
  assert (0 < 1 - 2 / (IZR p + 1))%R. { assert (2 <= IZR p)%R by (now apply IZR_le). apply Rgt_lt, Rgt_minus, Rlt_gt. apply Rmult_lt_reg_r with (IZR p + 1)%R; [lra|]. unfold Rdiv. rewrite Rmult_assoc, Rinv_l by lra. lra. }
  pose proof (pow_lt _ (S i) H) as Hpow. apply Hne. apply Rminus_diag_uniq. apply Rmult_eq_reg_l with ((1 - 2 / (IZR p + 1)) ^ S i)%R; [|lra]. rewrite <- E. lra.
Qed.
Print Assumptions C95_Ema_never_forgets.
(** Any two histories, possibly empty, with prices between lo and hi. *)
Lemma ema_fades (p : Z) (h1 h2 w : list R) lo hi i : 1 <= p -> (forall x, In x (h1 ++ h2 ++ w) -> lo <= x <= hi)%R -> (i < length w)%nat ->
  (Rabs (ema (ema_a p) (fun k => nth k (h1 ++ w) 0) (length h1 + i) - ema (ema_a p) (fun k => nth k (h2 ++ w) 0) (length h2 + i)) <= (1 - 2 / (IZR p + 1)) ^ S i * (hi - lo))%R.
Proof.
  intros Hp H. revert i. set (a := ema_a p). change (1 - 2 / (IZR p + 1))%R with (1 - a)%R.
  assert (Ha : (0 <= a <= 1)%R) by (pose proof (ema_a_range Hp); unfold a; lra).
  assert (B : forall h k, (h = h1 \/ h = h2) -> (k < length (h ++ w))%nat -> (lo <= ema a (fun k => nth k (h ++ w) 0) k <= hi)%R).
  { intros h k Hh Hk. apply ema_bounds; [exact Ha|]. intros j Hj. apply H. assert (Q : In (nth j (h ++ w) 0%R) (h ++ w)) by (apply nth_In; lia). rewrite !in_app_iff in *. destruct Hh; subst h; tauto. }
  induction i as [|i IH]; intros Hi.
  - cbn [pow]. rewrite Rmult_1_r. rewrite !Nat.add_0_r.
    destruct h1 as [|x1 h1], h2 as [|x2 h2].
    + rewrite Rminus_diag_eq by reflexivity. rewrite Rabs_R0. specialize (B [] 0%nat (or_introl eq_refl) Hi). apply Rmult_le_pos; lra.
    + cbn [length]. cbn [ema]. specialize (B (x2 :: h2) (length h2) (or_intror eq_refl) ltac:(cbn [app length]; rewrite app_length; lia)).
      cbn [app nth] in *. rewrite app_nth2, Nat.sub_diag by lia. assert (Bw : (lo <= nth 0 w 0 <= hi)%R) by (apply (H (nth 0 w 0%R)); right; apply in_app_iff; right; now apply nth_In).
      cbn [app nth] in *. set (e := ema a _ (length h2)) in *. apply Rabs_le. split; nra.
    + cbn [length]. cbn [ema]. specialize (B (x1 :: h1) (length h1) (or_introl eq_refl) ltac:(cbn [app length]; rewrite app_length; lia)).
      cbn [app nth] in *. rewrite app_nth2, Nat.sub_diag by lia. assert (Bw : (lo <= nth 0 w 0 <= hi)%R) by (apply (H (nth 0 w 0%R)); right; apply in_app_iff; right; now apply nth_In).
      set (e := ema a _ (length h1)) in *. apply Rabs_le. split; nra.
    + pose proof (@ema_step a (fun k => nth k ((x1 :: h1) ++ w) 0%R) (fun k => nth k ((x2 :: h2) ++ w) 0%R) (length (x1 :: h1)) (length (x2 :: h2)) (length w)) as E.
      specialize (E ltac:(intros j Hj; cbv beta; rewrite !app_nth2 by lia; f_equal; lia) ltac:(cbn; lia) ltac:(cbn; lia) 0%nat Hi). rewrite !Nat.add_0_r in E. rewrite E. cbn [pow]. rewrite Rmult_1_r.
      rewrite Rabs_mult, (Rabs_pos_eq (1 - a)) by lra. apply Rmult_le_compat_l; [lra|].
      pose proof (B (x1 :: h1) (length (x1 :: h1) - 1)%nat (or_introl eq_refl) ltac:(rewrite app_length; cbn; lia)). pose proof (B (x2 :: h2) (length (x2 :: h2) - 1)%nat (or_intror eq_refl) ltac:(rewrite app_length; cbn; lia)).
      apply Rabs_le. lra.
  - specialize (IH ltac:(lia)). rewrite <- !plus_n_Sm. cbn [ema].
    assert (E : nth (S (length h1 + i)) (h1 ++ w) 0%R = nth (S (length h2 + i)) (h2 ++ w) 0%R) by (rewrite !app_nth2 by lia; f_equal; lia). rewrite E.
    match goal with |- (Rabs (?u + (1 - a) * ?v - (?u + (1 - a) * ?z)) <= _)%R => replace (u + (1 - a) * v - (u + (1 - a) * z))%R with ((1 - a) * (v - z))%R by ring end.
    rewrite Rabs_mult, (Rabs_pos_eq (1 - a)) by lra. change ((1 - a) ^ S (S i))%R with ((1 - a) * (1 - a) ^ S i)%R. rewrite Rmult_assoc. apply Rmult_le_compat_l; [lra|exact IH].
Qed.
Theorem C95_Ema_fades (p : Z) (h1 h2 w : list R) (lo hi : R) : 1 <= p -> (forall x, In x (h1 ++ h2 ++ w) -> lo <= x <= hi)%R ->
  exists y1 y2, Ema (N := XR) p (fins (h1 ++ w)) = Ok (fins y1) /\ Ema (N := XR) p (fins (h2 ++ w)) = Ok (fins y2) /\
    length y1 = length (h1 ++ w) /\ length y2 = length (h2 ++ w) /\
    forall i, (i < length w)%nat -> (Rabs (nth (length h1 + i) y1 0 - nth (length h2 + i) y2 0) <= (1 - 2 / (IZR p + 1)) ^ S i * (hi - lo))%R.
Proof.
  intros Hp H. rewrite !Ema_exact by exact Hp.
  exists (tab (length (h1 ++ w)) (ema (ema_a p) (fun k => nth k (h1 ++ w) 0%R))), (tab (length (h2 ++ w)) (ema (ema_a p) (fun k => nth k (h2 ++ w) 0%R))).
  unfold fins. rewrite !tabmap, !tab_length. repeat (split; [reflexivity|]). intros i Hi. rewrite !app_length. rewrite !tab_nth by lia. now apply ema_fades.
Qed.
Print Assumptions C95_Ema_fades.

(** ** float64 *)
Lemma reads_app (L : MathLib) M (h w : list (@F (B64 L))) rh rw : reads M h rh -> reads M w rw -> reads M (h ++ w) (rh ++ rw).
Proof. intros [A1 A2] [B1 B2]. split; [now apply Forall2_app|now apply Forall_app]. Qed.
Lemma reads_length (L : MathLib) M (h : list (@F (B64 L))) rh : reads M h rh -> length h = length rh.
Proof. intros [A _]. induction A as [|x y l l0 Q A IH]; [reflexivity|]. exact (f_equal S IH). Qed.
(** In float64 the histories leave rounding errors behind, and no more: the differences of C95_Ma and C95_Ema_fades plus the rounding bounds of C85. *)
Theorem C95_float_Sma (L : MathLib) (p : Z) (M : R) (h1 h2 w : list (@F (B64 L))) (r1 r2 rw : list R) :
  1 <= p <= 2 ^ 38 -> (0 <= M <= 2 ^ 960)%R -> Z.of_nat (length (h1 ++ w)) <= 2 ^ 50 -> Z.of_nat (length (h2 ++ w)) <= 2 ^ 50 ->
  reads M h1 r1 -> reads M h2 r2 -> reads M w rw ->
  exists ys1 ys2, Sma p (h1 ++ w) = Ok ys1 /\ Sma p (h2 ++ w) = Ok ys2 /\ length ys1 = length (h1 ++ w) /\ length ys2 = length (h2 ++ w) /\
    forall i, p - 1 <= Z.of_nat i -> (i < length w)%nat -> exists y1 y2, number (Float64 L) (nth (length h1 + i) ys1 fzero) y1 /\ number (Float64 L) (nth (length h2 + i) ys2 fzero) y2 /\
      (Rabs (y1 - y2) <= INR (length h1 + length h2 + 2 * i + 4) * M / 2 ^ 50 + least)%R.
Proof.
  intros Hp HM N1 N2 R1 R2 Rw. pose proof (reads_length R1) as L1. pose proof (reads_length R2) as L2. pose proof (reads_length Rw) as Lw.
  destruct (C85_Sma_error Hp HM N1 (reads_app R1 Rw)) as (y1 & E1 & Q1 & A1). destruct (C85_Sma_error Hp HM N2 (reads_app R2 Rw)) as (y2 & E2 & Q2 & A2).
  exists y1, y2. repeat (split; [assumption|]). intros i Hpi Hi.
  destruct (A1 (length h1 + i)%nat ltac:(rewrite Q1, app_length; lia)) as (v1 & V1 & B1). destruct (A2 (length h2 + i)%nat ltac:(rewrite Q2, app_length; lia)) as (v2 & V2 & B2).
  exists v1, v2. split; [exact V1|]. split; [exact V2|]. rewrite L1 in B1. rewrite L2 in B2. rewrite window_app in B1, B2 by lia.
  rewrite <- L1 in B1. rewrite <- L2 in B2. replace (length h1 + length h2 + 2 * i + 4)%nat with ((length h1 + i + 2) + (length h2 + i + 2))%nat by lia.
  rewrite (plus_INR (length h1 + i + 2)). apply Rabs_between in B1, B2. apply Rabs_le. unfold Rdiv in *. rewrite !Rmult_plus_distr_r. lra.
Qed.
Print Assumptions C95_float_Sma.
Theorem C95_float_Ema (L : MathLib) (p : Z) (M : R) (h1 h2 w : list (@F (B64 L))) (r1 r2 rw : list R) :
  1 <= p < 2 ^ 36 -> (0 <= M <= 2 ^ 960)%R -> reads M h1 r1 -> reads M h2 r2 -> reads M w rw ->
  exists ys1 ys2, Ema p (h1 ++ w) = Ok ys1 /\ Ema p (h2 ++ w) = Ok ys2 /\ length ys1 = length (h1 ++ w) /\ length ys2 = length (h2 ++ w) /\
    forall i, (i < length w)%nat -> exists y1 y2, number (Float64 L) (nth (length h1 + i) ys1 fzero) y1 /\ number (Float64 L) (nth (length h2 + i) ys2 fzero) y2 /\
      (Rabs (y1 - y2) <= (1 - 2 / (IZR p + 1)) ^ S i * (2 * M) + IZR (p + 1) * (M / 2 ^ 50 + 2 * least))%R.
Proof.
  intros Hp HM R1 R2 Rw. pose proof (reads_length R1) as L1. pose proof (reads_length R2) as L2. pose proof (reads_length Rw) as Lw.
  destruct (C85_Ema_error Hp HM (reads_app R1 Rw)) as (y1 & E1 & Q1 & A1). destruct (C85_Ema_error Hp HM (reads_app R2 Rw)) as (y2 & E2 & Q2 & A2).
  exists y1, y2. repeat (split; [assumption|]). intros i Hi.
  destruct (A1 (length h1 + i)%nat ltac:(rewrite Q1, app_length; lia)) as (v1 & V1 & B1). destruct (A2 (length h2 + i)%nat ltac:(rewrite Q2, app_length; lia)) as (v2 & V2 & B2).
  exists v1, v2. split; [exact V1|]. split; [exact V2|].
  assert (Hb : forall x, In x (r1 ++ r2 ++ rw) -> (- M <= x <= M)%R).
  { intros x Hx. destruct R1 as [_ R1], R2 as [_ R2], Rw as [_ Rw]. rewrite Forall_forall in R1, R2, Rw. apply Rabs_between. rewrite !in_app_iff in Hx. destruct Hx as [Hx|[Hx|Hx]]; auto. }
  pose proof (@ema_fades p r1 r2 rw (- M) M i (proj1 Hp) Hb ltac:(lia)) as Fd. unfold ema_a in Fd. rewrite plus_IZR in B1, B2 |- *. rewrite <- L1, <- L2 in Fd.
  replace (M - - M)%R with (2 * M)%R in Fd by ring. apply Rabs_between in B1, B2, Fd. apply Rabs_le.
  replace (M / 2 ^ 50)%R with (2 * (M / 2 ^ 51))%R by (change (2 ^ 51)%R with (2 * 2 ^ 50)%R; field; apply pow_nonzero; lra).
  set (e := ((IZR p + 1) * (M / 2 ^ 51 + least))%R) in *. replace ((IZR p + 1) * (2 * (M / 2 ^ 51) + 2 * least))%R with (2 * e)%R by (unfold e; ring). lra.
Qed.
Print Assumptions C95_float_Ema.

(** two histories of different lengths and three common candles; a two-candle average agrees from the second common candle on, not before *)
Example C95_hyp :
  let h1 := map at_price [10; 20]%R in let h2 := map at_price [7]%R in let w := map at_price [1; 2; 3]%R in
  real_candles h1 /\ real_candles h2 /\ real_candles w /\ (2 <= length w)%nat /\
  rmap (column (fun v => v)) (rows_of I_Sma 2 (h1 ++ w)) <> rmap (column (fun v => v)) (rows_of I_Sma 2 (h2 ++ w)).
Proof.
  cbv zeta. repeat (split; [first [apply at_price_real|cbn; lia]|]). rewrite !Sma_ind_T by lia. cbn [rmap]. intros E. injection E as E. discriminate.
Qed.
