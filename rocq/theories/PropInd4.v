(** * PropInd4: property C50, trend.BreakoutProbability. *)
From Coq Require Import Reals Lra SpecFloat.
From Verif Require Import Base Num B64 XReal Rounding Lits Containers Ta TaTools Sides Klines
  RSum XrMore IndBase IndTrend IndTools IndForms IndForms2 IndFormsSpec IndMachines BreakProb PropInd1.
Set Implicit Arguments.
Open Scope Z_scope.

(** Number of bars j in 1..i such that [ev previous current] holds ([cnt], BreakProb.v, counts the true values). *)
Definition happened {N : Num} (ev : Candle -> Candle -> bool) (kl : list Candle) (j : nat) : bool :=
  match nth_error kl (j - 1), nth_error kl j with Some c', Some c => ev c' c | _, _ => false end.
Definition up_bar {N : Num} (c' c : Candle) : bool := cClose c' >~ cOpen c'.
Definition down_bar {N : Num} (c' c : Candle) : bool := cClose c' <~ cOpen c'.
(** Level k lies k steps away, a step being [percent] of the close. *)
Definition offset {N : Num} (percent : F) (k : nat) (c : Candle) : F :=
  match k with O => ofZ 0 | 1%nat => cClose c *~ (percent /~ ofZ 100) | _ => cClose c *~ (percent /~ ofZ 100) *~ ofZ (Z.of_nat k) end.
Definition broke_high {N : Num} (percent : F) (k : nat) (c' c : Candle) : bool := cHigh c >~ cHigh c' +~ offset percent k c.
Definition held_low {N : Num} (percent : F) (k : nat) (c' c : Candle) : bool := cLow c >~ cLow c' -~ offset percent k c.

(** A percentage: a hundred times [a] out of [b]. *)
Definition percentage {N : Num} (x : F) (most : nat) : Prop :=
  x = ofZ 0 \/ exists a b, 1 <= a <= b /\ b <= Z.of_nat most /\ x = ofZ a /~ ofZ b *~ ofZ 100.

Lemma cnt_range P i : 0 <= cnt P i <= Z.of_nat i.
Proof. induction i as [|i IH]; cbn [cnt]; [lia|]. destruct (P (S i)); lia. Qed.
Lemma cnt_le P Q i : (forall j, P j = true -> Q j = true) -> cnt P i <= cnt Q i.
Proof.
  intros H. induction i as [|i IH]; cbn [cnt]; [lia|]. pose proof (H (S i)). destruct (P (S i)), (Q (S i)); lia.
Qed.
Lemma cnt_sum P i : cnt P i + cnt (fun j => negb (P j)) i = Z.of_nat i.
Proof. induction i as [|i IH]; cbn [cnt]; [lia|]. destruct (P (S i)); cbn [negb]; lia. Qed.
Lemma cnt_ext P Q i : (forall j, (1 <= j <= i)%nat -> P j = Q j) -> cnt P i = cnt Q i.
Proof. induction i as [|i IH]; intros H; cbn [cnt]; [reflexivity|]. rewrite H by lia. now rewrite IH by (intros; apply H; lia). Qed.
Lemma pct_ext (N : Num) P P' Q Q' i : (forall j, (1 <= j <= i)%nat -> P j = P' j) -> (forall j, (1 <= j <= i)%nat -> Q j = Q' j) -> pct P Q i = pct P' Q' i.
Proof.
  induction i as [|i IH]; intros H H'; cbn [pct]; [reflexivity|]. rewrite H by lia.
  rewrite (@cnt_ext P P'), (@cnt_ext Q Q') by auto. rewrite IH; [reflexivity|intros; apply H; lia|intros; apply H'; lia].
Qed.
Lemma pct_range (N : Num) P Q i : (forall j, P j = true -> Q j = true) -> percentage (pct P Q i) i.
Proof.
  intros H. induction i as [|i IH]; [now left|]. cbn [pct]. destruct (P (S i)) eqn:E.
  - right. exists (cnt P (S i)), (cnt Q (S i)). pose proof (cnt_le P Q (S i) H). pose proof (cnt_range Q (S i)). pose proof (cnt_range P i).
    split; [|split; [lia|reflexivity]]. split; [|assumption]. cbn [cnt]. rewrite E. lia.
  - destruct IH as [IH|(a & b & H1 & H2 & H3)]; [now left|right]. exists a, b. split; [exact H1|]. split; [lia|exact H3].
Qed.

Theorem C50_BreakoutProbability (N : Num) (p : BPP) (kl : list Candle) :
  exists rows, rows_of I_BreakoutProbability p kl = Ok rows /\ length rows = length kl /\
  forall i r, (1 <= i)%nat -> nth_error rows i = Some r ->
    (* five upper and five lower lines; those beyond the configured number, cut to 1..5, stay blank *)
    length (bvList (rVal r)) = 10%nat /\
    (forall k it, nth_error (bvList (rVal r)) k = Some it ->
       percentage (biPer it) i /\ (Z.max 1 (Z.min 5 (bpLines p)) <= Z.of_nat (k mod 5) -> it = bp_item0)) /\
    (* wins and losses add up to the number of evaluated bars *)
    exists w l, 0 <= w /\ 0 <= l /\ w + l = Z.of_nat i /\ bvWin (rVal r) = ofZ w /\ bvLoss (rVal r) = ofZ l.
Proof.
  rewrite Breakout_T. eexists. split; [reflexivity|]. split; [apply tab_length|].
  intros i r Hi Er. apply tab_some in Er as [Li ->]. cbn [rVal]. destruct i as [|i]; [lia|]. cbn [browF]. unfold bout. cbn [bvList bvWin bvLoss].
  split; [now rewrite app_length, !tab_length|]. split.
  - assert (Q : forall k, percentage (biPer (fst (bshow p kl (S i) k))) (S i) /\ percentage (biPer (snd (bshow p kl (S i) k))) (S i) /\
      (Z.max 1 (Z.min 5 (bpLines p)) <= Z.of_nat k -> bshow p kl (S i) k = (bp_item0, bp_item0))).
    { intros k. unfold bshow, bp_shown.
      assert (Ec : bp_clamp (bpLines p) = Z.max 1 (Z.min 5 (bpLines p))).
      { unfold bp_clamp. rewrite Z.gtb_ltb. destruct (Z.ltb_spec (bpLines p) 1); [reflexivity + (cbn; lia)|]. destruct (Z.ltb_spec 5 (bpLines p)); lia. }
      rewrite Ec. destruct (Z.ltb_spec (Z.of_nat k) (Z.max 1 (Z.min 5 (bpLines p)))).
      - destruct (bp_one _ _ _ _ _ _ _) as [q|] eqn:Eq; [|split; [now left|split; [now left|lia]]].
        assert (P1 : percentage (pct (bgu p kl k) (bgreen kl) (S i)) (S i)) by (apply pct_range; intros j Hj; now apply andb_true_iff in Hj).
        assert (P2 : percentage (pct (bgd p kl k) (bgreen kl) (S i)) (S i)) by (apply pct_range; intros j Hj; now apply andb_true_iff in Hj).
        assert (P3 : percentage (pct (bru p kl k) (bred kl) (S i)) (S i)) by (apply pct_range; intros j Hj; now apply andb_true_iff in Hj).
        assert (P4 : percentage (pct (brd p kl k) (bred kl) (S i)) (S i)) by (apply pct_range; intros j Hj; now apply andb_true_iff in Hj).
        unfold bp_one, bval in Eq. revert P1 P2 P3 P4 Eq.
        generalize (pct (bgu p kl k) (bgreen kl) (S i)) (pct (bgd p kl k) (bgreen kl) (S i)) (pct (bru p kl k) (bred kl) (S i)) (pct (brd p kl k) (bred kl) (S i)).
        intros v0 v1 v2 v3 P1 P2 P3 P4 Eq. destruct (_ || _); [|discriminate]. injection Eq as <-. cbn [fst snd biPer].
        split; [|split; [|lia]]; destruct (bgreen kl (S i)); assumption.
      - split; [now left|split; [now left|reflexivity]]. }
    intros k it Hk. destruct (Nat.lt_ge_cases k 5) as [Hk5|Hk5].
    + rewrite nth_error_app1 in Hk by (rewrite tab_length; exact Hk5). apply tab_some in Hk as [_ ->]. destruct (Q k) as (Q1 & _ & Q3).
      split; [exact Q1|]. rewrite Nat.mod_small by exact Hk5. intros H. now rewrite Q3.
    + rewrite nth_error_app2, tab_length in Hk by (rewrite tab_length; exact Hk5). apply tab_some in Hk as [Hk ->]. destruct (Q (k - 5)%nat) as (_ & Q2 & Q3).
      split; [exact Q2|]. replace k with (k - 5 + 1 * 5)%nat by lia. rewrite Nat.mod_add, Nat.mod_small by lia.
      replace (k - 5 + 1 * 5 - 5)%nat with (k - 5)%nat by lia. intros H. now rewrite Q3.
  - exists (cnt (bwin p kl) (S i)), (cnt (fun j => negb (bwin p kl j)) (S i)). rewrite cnt_sum.
    split; [apply cnt_range|]. split; [apply cnt_range|]. auto.
Qed.
Print Assumptions C50_BreakoutProbability.

(** Every percentage lies in [0,100], in float64 up to 2^53 candles and in exact arithmetic. *)
Open Scope R_scope.
Theorem C50_float64 (L : MathLib) (x : F (Num := B64 L)) (most : nat) : (Z.of_nat most <= 2 ^ 53)%Z -> percentage x most ->
  fin x /\ 0 <= val x <= 100.
Proof.
  intros Hm [->|(a & b & Hab & Hb & ->)].
  - destruct (@ofZ_val 0) as [H1 H2]; [lia|]. cbn [ofZ B64]. rewrite H2. split; [exact H1|lra].
  - cbn [ofZ fmul fdiv B64]. destruct (@ofZ_val a) as [A1 A2]; [lia|]. destruct (@ofZ_val b) as [B1 B2]; [lia|].
    destruct (@ofZ_val 100) as [C1 C2]; [lia|].
    assert (Pa : 1 <= IZR a) by (apply IZR_le; lia). assert (Pab : IZR a <= IZR b) by (apply IZR_le; lia).
    assert (Q : 0 <= IZR a / IZR b <= 1).
    { split; [apply Rmult_le_pos; [lra|]; left; apply Rinv_0_lt_compat; lra|]. apply Rmult_le_reg_r with (IZR b); [lra|]. unfold Rdiv. rewrite Rmult_assoc, Rinv_l; lra. }
    assert (Q' : 0 <= rnd (IZR a / IZR b) <= 1).
    { rewrite <- rnd_0 at 1. rewrite <- (@rnd_int 1) by lia. split; apply rnd_le; lra. }
    destruct (@div_val (b_ofZ a) (b_ofZ b)) as [D1 D2]; auto; rewrite ?A2, ?B2; [lra|apply (@small_huge _ 1); [rewrite Rabs_right; lra|lia]|].
    rewrite A2, B2 in D2.
    assert (M : 0 <= rnd (IZR a / IZR b) * 100 <= 100) by lra.
    destruct (@mul_val (SFdiv 53 1024 (b_ofZ a) (b_ofZ b)) (b_ofZ 100)) as [E1 E2]; auto.
    { rewrite D2, C2. apply (@small_huge _ 100); [rewrite Rabs_right; lra|lia]. }
    split; [exact E1|]. rewrite E2, D2, C2. split.
    + apply Rle_trans with (rnd 0); [rewrite rnd_0; lra|apply rnd_le; lra].
    + apply Rle_trans with (rnd 100); [apply rnd_le; lra|rewrite (@rnd_int 100) by lia; lra].
Qed.
Print Assumptions C50_float64.
Theorem C50_exact (x : F (Num := XR)) (most : nat) : percentage x most -> exists r, x = Fin r /\ 0 <= r <= 100.
Proof.
  intros [->|(a & b & Hab & Hb & ->)].
  - exists 0. split; [reflexivity|lra].
  - exists (IZR a / IZR b * 100). assert (Pa : 1 <= IZR a) by (apply IZR_le; lia). assert (Pab : IZR a <= IZR b) by (apply IZR_le; lia). split.
    + xr. reflexivity.
    + assert (0 <= IZR a / IZR b <= 1); [|lra].
      split; [apply Rmult_le_pos; [lra|]; left; apply Rinv_0_lt_compat; lra|]. apply Rmult_le_reg_r with (IZR b); [lra|]. unfold Rdiv. rewrite Rmult_assoc, Rinv_l; lra.
Qed.
Print Assumptions C50_exact.
Close Scope R_scope.

(** What the percentages mean.  On a bar after an up (down) bar, line k shows how often, after up (down) bars, the high
    exceeded the previous high by k steps, and how often the low stayed above the previous low minus k steps; each is
    the value it had when that last happened ([pct], BreakProb.v).  A line is shown when both are positive. *)
Theorem C50_meaning (N : Num) (p : BPP) (kl : list Candle) (rows : list (row BPV)) :
  rows_of I_BreakoutProbability p kl = Ok rows ->
  forall i r c' c k hi lo, (1 <= i)%nat -> nth_error rows i = Some r -> nth_error kl (i - 1) = Some c' -> nth_error kl i = Some c ->
    (k < 5)%nat -> nth_error (bvList (rVal r)) k = Some hi -> nth_error (bvList (rVal r)) (5 + k) = Some lo ->
    let x := bpStep p in
    let share case ev := pct (happened (fun c' c => case c' c && ev x k c' c) kl) (happened case kl) i in
    let v0 := share up_bar broke_high in let v1 := share up_bar held_low in
    let v2 := share down_bar broke_high in let v3 := share down_bar held_low in
    let step := cClose c *~ (x /~ ofZ 100) in
    if (Z.of_nat k <? Z.max 1 (Z.min 5 (bpLines p))) &&
       ((up_bar c' c && (fmin v0 v1 >~ ofZ 0)) || (down_bar c' c && (fmin v2 v3 >~ ofZ 0)))
    then hi = mkBPItem (cHigh c +~ step *~ ofZ (Z.of_nat k)) (if up_bar c' c then v0 else v2) true /\
         lo = mkBPItem (cLow c -~ step *~ ofZ (Z.of_nat k)) (if up_bar c' c then v1 else v3) false
    else hi = mkBPItem (ofZ 0) (ofZ 0) false /\ lo = mkBPItem (ofZ 0) (ofZ 0) false.
Proof.
  rewrite Breakout_T. intros E. apply (f_equal (fun q => match q with Ok l => l | Panic => [] end)) in E. cbn beta iota in E. subst rows.
  intros i r c' c k hi lo Hi Er Ec' Ec Hk Ehi Elo x share v0 v1 v2 v3 step.
  apply tab_some in Er as [Li ->]. destruct i as [|i]; [lia|]. cbn [rVal browF] in Ehi, Elo. unfold bout in Ehi, Elo. cbn [bvList] in Ehi, Elo.
  rewrite nth_error_app1 in Ehi by (rewrite tab_length; exact Hk). apply tab_some in Ehi as [_ ->].
  rewrite nth_error_app2, tab_length in Elo by (rewrite tab_length; lia). replace (5 + k - 5)%nat with k in Elo by lia. apply tab_some in Elo as [_ ->].
  replace (S i - 1)%nat with i in Ec' by lia.
  assert (G : forall j, (j < length kl)%nat -> nth_error kl j = Some (cn kl j)).
  { intros j Hj. destruct (nth_error kl j) eqn:Ej; [apply cn_some in Ej; now rewrite Ej|apply nth_error_None in Ej; lia]. }
  assert (Gu : forall j, (1 <= j <= S i)%nat -> bgreen kl j = happened up_bar kl j) by (intros j Hj; unfold happened; now rewrite !G by lia).
  assert (Gd : forall j, (1 <= j <= S i)%nat -> bred kl j = happened down_bar kl j) by (intros j Hj; unfold happened; now rewrite !G by lia).
  assert (V0 : pct (bgu p kl k) (bgreen kl) (S i) = v0).
  { apply pct_ext; [|exact Gu]. intros j Hj. unfold bgu, happened. rewrite !G by lia. reflexivity. }
  assert (V1 : pct (bgd p kl k) (bgreen kl) (S i) = v1).
  { apply pct_ext; [|exact Gu]. intros j Hj. unfold bgd, happened. rewrite !G by lia. reflexivity. }
  assert (V2 : pct (bru p kl k) (bred kl) (S i) = v2).
  { apply pct_ext; [|exact Gd]. intros j Hj. unfold bru, happened. rewrite !G by lia. reflexivity. }
  assert (V3 : pct (brd p kl k) (bred kl) (S i) = v3).
  { apply pct_ext; [|exact Gd]. intros j Hj. unfold brd, happened. rewrite !G by lia. reflexivity. }
  assert (Bg : bgreen kl (S i) = up_bar c' c).
  { unfold bgreen. replace (S i - 1)%nat with i by lia. apply cn_some in Ec'. now rewrite Ec'. }
  assert (Br : bred kl (S i) = down_bar c' c).
  { unfold bred. replace (S i - 1)%nat with i by lia. apply cn_some in Ec'. now rewrite Ec'. }
  apply cn_some in Ec. unfold bshow, bp_shown, bp_one, bval. rewrite V0, V1, V2, V3, Bg, Br, Ec.
  assert (Ecl : bp_clamp (bpLines p) = Z.max 1 (Z.min 5 (bpLines p))).
  { unfold bp_clamp. rewrite Z.gtb_ltb. destruct (Z.ltb_spec (bpLines p) 1); [cbn; lia|]. destruct (Z.ltb_spec 5 (bpLines p)); lia. }
  rewrite Ecl. unfold bstep. rewrite Ec. destruct (Z.of_nat k <? Z.max 1 (Z.min 5 (bpLines p))); cbn [andb]; [|split; reflexivity].
  destruct (_ || _); split; reflexivity.
Qed.
Print Assumptions C50_meaning.
(** Wins: the bar is tested against the previous high when the share of broken highs is the larger one, else against the previous low. *)
Theorem C50_wins (N : Num) (p : BPP) (kl : list Candle) (rows : list (row BPV)) :
  rows_of I_BreakoutProbability p kl = Ok rows ->
  exists target : list F, length target = length kl /\
  (forall i t c' c, (1 <= i)%nat -> nth_error target i = Some t -> nth_error kl (i - 1) = Some c' -> nth_error kl i = Some c ->
    let share case ev := pct (happened (fun c' c => case c' c && ev (bpStep p) 0%nat c' c) kl) (happened case kl) i in
    let high_first case := fmax (share case broke_high) (share case held_low) ==~ share case broke_high in
    t = if (if up_bar c' c then high_first up_bar else high_first down_bar) then cHigh c' else cLow c') /\
  forall i r, (1 <= i)%nat -> nth_error rows i = Some r ->
    let win j := match nth_error kl (j - 1), nth_error kl j, nth_error target j with
                 | Some c', Some c, Some t => if t ==~ cHigh c' then cHigh c >=~ t else cLow c <=~ t
                 | _, _, _ => false end in
    bvWin (rVal r) = ofZ (cnt win i) /\ bvLoss (rVal r) = ofZ (cnt (fun j => negb (win j)) i).
Proof.
  rewrite Breakout_T. intros E. apply (f_equal (fun q => match q with Ok l => l | Panic => [] end)) in E. cbn beta iota in E. subst rows.
  assert (G : forall j, (j < length kl)%nat -> nth_error kl j = Some (cn kl j)).
  { intros j Hj. destruct (nth_error kl j) eqn:Ej; [apply cn_some in Ej; now rewrite Ej|apply nth_error_None in Ej; lia]. }
  exists (tab (length kl) (blevel p kl)). split; [apply tab_length|]. split.
  - intros i t c' c Hi Et Ec' Ec share hf. apply tab_some in Et as [Li ->]. unfold blevel, bval.
    assert (Gu : forall j, (1 <= j <= i)%nat -> bgreen kl j = happened up_bar kl j) by (intros j Hj; unfold happened; now rewrite !G by lia).
    assert (Gd : forall j, (1 <= j <= i)%nat -> bred kl j = happened down_bar kl j) by (intros j Hj; unfold happened; now rewrite !G by lia).
    assert (V0 : pct (bgu p kl 0) (bgreen kl) i = share up_bar broke_high).
    { apply pct_ext; [|exact Gu]. intros j Hj. unfold bgu, happened. rewrite !G by lia. reflexivity. }
    assert (V1 : pct (bgd p kl 0) (bgreen kl) i = share up_bar held_low).
    { apply pct_ext; [|exact Gu]. intros j Hj. unfold bgd, happened. rewrite !G by lia. reflexivity. }
    assert (V2 : pct (bru p kl 0) (bred kl) i = share down_bar broke_high).
    { apply pct_ext; [|exact Gd]. intros j Hj. unfold bru, happened. rewrite !G by lia. reflexivity. }
    assert (V3 : pct (brd p kl 0) (bred kl) i = share down_bar held_low).
    { apply pct_ext; [|exact Gd]. intros j Hj. unfold brd, happened. rewrite !G by lia. reflexivity. }
    rewrite V0, V1, V2, V3. apply cn_some in Ec'. rewrite Ec'. unfold bgreen. rewrite Ec'. reflexivity.
  - intros i r Hi Er win. apply tab_some in Er as [Li ->]. destruct i as [|i]; [lia|]. cbn [rVal browF]. unfold bout. cbn [bvWin bvLoss].
    assert (W : forall j, (1 <= j <= S i)%nat -> bwin p kl j = win j).
    { intros j Hj. unfold win. rewrite !G, tab_nth_error by lia. reflexivity. }
    split; f_equal; apply cnt_ext; intros j Hj; now rewrite W.
Qed.
Print Assumptions C50_wins.
Definition zigzag : list (Candle (N := EX)) :=
  [kd 10 12 9 11 1 60; kd 11 14 10 13 1 120; kd 13 15 12 14 1 180; kd 14 14 8 9 1 240; kd 9 12 8 11 1 300; kd 11 13 10 12 1 360].
Definition shown (v : BPV (N := EX)) : Z * Z * list Z :=
  (b_trunc (bvWin v), b_trunc (bvLoss v), map (fun it : BPItem (N := EX) => b_trunc (biPer it)) (bvList v)).
Example C50_hyp : rmap (map (fun r => shown (rVal r))) (rows_of I_BreakoutProbability (mkBPP (fq 6 5) 2) zigzag) =
  Ok [(0, 0, []); (1, 0, [100; 100; 0; 0; 0; 100; 100; 0; 0; 0]); (2, 0, [100; 100; 0; 0; 0; 100; 100; 0; 0; 0]);
      (2, 1, [100; 100; 0; 0; 0; 100; 100; 0; 0; 0]); (2, 2, [0; 0; 0; 0; 0; 0; 0; 0; 0; 0]);
      (3, 2, [75; 75; 0; 0; 0; 75; 75; 0; 0; 0])].
Proof. vm_compute. reflexivity. Qed.

(** ** C65 *)
(** Refuted: on a series whose lows only rise, the lower lines report a probability of 100 of breaking the previous low. *)
Theorem C65_refuted : exists kl : list (Candle (N := EX)),
  (forall i c c', nth_error kl (S i) = Some c -> nth_error kl i = Some c' -> cLow c' <~ cLow c = true) /\
  rmap (map (fun r => shown (rVal r))) (rows_of I_BreakoutProbability (mkBPP (fq 6 5) 1) kl) =
  Ok [(0, 0, []); (1, 0, [100; 0; 0; 0; 0; 100; 0; 0; 0; 0]); (2, 0, [100; 0; 0; 0; 0; 100; 0; 0; 0; 0])].
Proof.
  exists (firstn 3 zigzag). split; [|vm_compute; reflexivity].
  intros [|[|[|i]]] c c' E E'; cbn in E, E'; try discriminate; try (injection E as <-; injection E' as <-; vm_compute; reflexivity).
Qed.
Print Assumptions C65_refuted.
