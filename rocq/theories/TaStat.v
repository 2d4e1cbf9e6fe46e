(** * TaStat: weighted averages, variance, deviations (exact arithmetic). *)
From Verif Require Import Base Num XReal Order Ta TaTools TaElem SpecTa RSum TaAvg.
Set Implicit Arguments.
Local Open Scope R_scope.

Lemma sumf_succ n : sumf (fun k => INR (S k)) n = INR n * (INR n + 1) / 2.
Proof. induction n as [|n IH]; [cbn; lra|]. cbn [sumf]. rewrite IH, S_INR. lra. Qed.

Lemma IZR_half (p : nat) : IZR (Z.shiftr (Z.of_nat p * (Z.of_nat p + 1)) 1) = INR p * (INR p + 1) / 2.
Proof.
  rewrite Z.shiftr_div_pow2 by lia. change (2 ^ 1)%Z with 2%Z.
  assert (H : exists k, (Z.of_nat p * (Z.of_nat p + 1) = k * 2)%Z).
  { induction p as [|p [k IH]]; [exists 0%Z; lia|]. exists (k + Z.of_nat p + 1)%Z. nia. }
  destruct H as [k Hk]. rewrite Hk, Z.div_mul by lia.
  apply (f_equal IZR) in Hk. rewrite !mult_IZR, plus_IZR, IZR_INR in Hk. lra.
Qed.

Lemma wsum_from_tab c p g :
  wsum_from c (tab p g) = sumf (fun j => (c + INR j) * g j) p.
Proof.
  assert (H : forall l c, wsum_from c l = sumf (fun j => (c + INR j) * nth j l 0) (length l)).
  { induction l as [|x l IH]; intros c0; [reflexivity|].
    cbn [length wsum_from]. rewrite sumf_first, IH. cbn [nth]. change (INR 0) with 0. f_equal; [lra|].
    apply sumf_ext. intros k _. cbn [nth]. rewrite S_INR. f_equal. lra. }
  rewrite H, tab_length. apply sumf_ext. intros k Hk. now rewrite tab_nth.
Qed.

Lemma wmean_tab p g : wmean (tab p g) = sumf (fun j => INR (S j) * g j) p / (INR p * (INR p + 1) / 2).
Proof.
  unfold wmean. rewrite wsum_from_tab, tab_length. f_equal.
  - apply sumf_ext. intros k _. rewrite S_INR. f_equal. lra.
  - change (map (fun k => INR (S k)) (seq 0 p)) with (tab p (fun k => INR (S k))).
    now rewrite Rsum_tab, sumf_succ.
Qed.

(** ** Wma *)
Section Wma.
Variables (p : nat) (xs : list R).
Let x k := nth k xs 0.
Definition wma_out (i : nat) : xr :=
  if (S i <? p)%nat then Fin 0 else Fin (wmean (window xs i p)).

Lemma Wma_one : Wma (N := XR) 1 (fins xs) = Ok (fins xs).
Proof. unfold Wma. rewrite make_len. reflexivity. Qed.

Lemma Wma_exact : (1 <= p)%nat -> (p <= S (length xs))%nat ->
  Wma (N := XR) (Z.of_nat p) (fins xs) = Ok (tab (length xs) wma_out).
Proof.
  intros Hp Hn. destruct (Nat.eq_dec p 1) as [E1|Hp1].
  { replace (Z.of_nat p) with 1%Z by lia. rewrite Wma_one. f_equal. rewrite (tab_of_list xs 0) at 1.
    rewrite fins_tab. apply tab_ext. intros k Hk. unfold wma_out. rewrite E1.
    destruct (Nat.ltb_spec (S k) 1); [lia|]. f_equal.
    rewrite (@window_full _ xs k 1 0) by lia. rewrite wmean_tab.
    cbn [sumf INR]. replace (S k - 1 + 0)%nat with k by lia. field. }
  unfold Wma. rewrite make_len, fins_length; cbn [bind].
  destruct (Z.eqb_spec (Z.of_nat p) 1); [lia|].
  replace (Z.of_nat p - 1)%Z with (Z.of_nat (p - 1)) by lia.
  set (W := fun k n => sumf (fun j => INR (S j) * x (k + j)%nat) n).
  set (B := fun k n => sumf (fun j => x (k + j)%nat) n).
  set (T := fun k : nat => match k with O => 0 | S k' => x k' end).
  change 0%Z with (Z.of_nat 0).
  rewrite (@for_nat _ (fun i => (Fin (W 0%nat i), Fin (B 0%nat i))) 0 (p - 1)).
  2: lia.
  2: { rewrite xr_zero. reflexivity. }
  2: { intros i Hi. rewrite fins_get by lia. cbn [bind]. xr. unfold W, B, x. cbn [sumf Nat.add].
       do 2 f_equal; f_equal. replace (Z.of_nat i + 1)%Z with (Z.of_nat (S i)) by lia.
       rewrite IZR_INR. lra. }
  cbn [bind]. rewrite Z.max_r by lia. rewrite fins_len.
  assert (Hstep : forall i, (p - 1 <= i < length xs)%nat ->
     wma_out i = Fin (W (i - (p - 1))%nat p / (INR p * (INR p + 1) / 2))).
  { intros i Hi. unfold wma_out. destruct (Nat.ltb_spec (S i) p); [lia|]. f_equal.
    rewrite (@window_full _ xs i p 0) by lia. rewrite wmean_tab. unfold W, x. f_equal.
    apply sumf_ext. intros k _. do 2 f_equal. lia. }
  rewrite (@for_nat _ (fun i => let k := (i - (p - 1))%nat in
     (Fin (W k (p - 1)%nat), Fin (B k (p - 1)%nat + T k), Fin (T k),
      partial (@fzero XR) wma_out (length xs) i)) (p - 1) (length xs)).
  - cbn [bind]. now rewrite partial_full.
  - lia.
  - cbn zeta. rewrite Nat.sub_diag. cbn [T]. rewrite Rplus_0_r, xr_zero. f_equal.
    apply partial_skips; [lia|]. intros k Hk. unfold wma_out.
    destruct (Nat.ltb_spec (S k) p); [reflexivity|lia].
  - intros i Hi. cbn zeta. set (k := (i - (p - 1))%nat).
    rewrite fins_get by lia. cbn [bind]. xr.
    replace (Z.of_nat i - Z.of_nat (p - 1))%Z with (Z.of_nat k) by lia.
    rewrite fins_get by lia. cbn [bind].
    replace (Z.of_nat (p - 1) + Z.of_nat k)%Z with (Z.of_nat i) by lia.
    rewrite IZR_half, IZR_INR. change (nth i xs 0) with (x i). change (nth k xs 0) with (x k).
    assert (EW : W k p = W k (p - 1)%nat + x i * INR p).
    { unfold W. replace p with (S (p - 1)) at 1 by lia. cbn [sumf].
      replace (k + (p - 1))%nat with i by lia. replace (S (p - 1)) with p by lia. lra. }
    assert (EB : B k p = B k (p - 1)%nat + x i).
    { unfold B. replace p with (S (p - 1)) at 1 by lia. cbn [sumf].
      replace (k + (p - 1))%nat with i by lia. lra. }
    assert (Hden : INR p * (INR p + 1) / 2 <> 0).
    { assert (0 < INR p) by (apply INR_pos; lia). nra. }
    rewrite xr_div by exact Hden.
    rewrite partial_set; [|lia|].
    + cbn [bind]. replace (S i - (p - 1))%nat with (S k) by lia. cbn [T].
      assert (EW' : W (S k) (p - 1)%nat = W k p - B k p).
      { unfold W, B. replace p with (S (p - 1)) at 2 3 by lia. rewrite !sumf_first.
        rewrite <- !Nat.add_succ_comm || idtac.
        rewrite (sumf_ext (fun j => INR (S (S j)) * x (k + S j)%nat)
                          (fun j => INR (S j) * x (S k + j)%nat + x (S k + j)%nat)).
        2:{ intros j _. rewrite (S_INR (S j)). replace (k + S j)%nat with (S k + j)%nat by lia. lra. }
        rewrite sumf_plus.
        rewrite (sumf_ext (fun j => x (k + S j)%nat) (fun j => x (S k + j)%nat))
          by (intros j _; f_equal; lia).
        cbn [INR]. rewrite Nat.add_0_r. lra. }
      assert (EB' : B (S k) (p - 1)%nat + x k = B k p).
      { unfold B. replace p with (S (p - 1)) at 2 by lia. rewrite sumf_first, Nat.add_0_r.
        rewrite (sumf_ext (fun j => x (k + S j)%nat) (fun j => x (S k + j)%nat))
          by (intros j _; f_equal; lia). lra. }
      f_equal. f_equal. f_equal. f_equal.
      * f_equal. rewrite EW', EW, EB. lra.
      * f_equal. fold (x k). rewrite EB', EB. lra.
    + rewrite Hstep by lia. fold k. f_equal. f_equal. rewrite EW. reflexivity.
Qed.
End Wma.

Lemma Wma_panic_short {N : Num} (p : Z) (xs : list F) : (len xs + 1 < p)%Z -> Wma p xs = Panic.
Proof.
  intros H. unfold Wma. rewrite make_len; cbn [bind].
  pose proof (len_nonneg xs). destruct (Z.eqb_spec p 1); [lia|].
  rewrite for_panic_at with (mid := len xs) (I := fun _ _ => True); auto.
  - lia.
  - intros i [a b] Hi _. destruct (@get_in_range _ xs i) as [v E]; [lia|]. rewrite E. cbn [bind]. eauto.
  - intros [a b] _. rewrite get_out by (right; lia). reflexivity.
Qed.

Lemma Wma_panic_neg {N : Num} (p : Z) (xs : list F) : (p <= 0)%Z -> xs <> [] -> Wma p xs = Panic.
Proof.
  intros H Hx. unfold Wma. rewrite make_len; cbn [bind]. apply len_pos in Hx.
  destruct (Z.eqb_spec p 1); [lia|]. rewrite for_empty by lia. cbn [bind].
  rewrite Z.max_l by lia. rewrite for_first_panic; [reflexivity|lia|].
  destruct (@get_in_range _ xs 0%Z) as [v E]; [lia|]. rewrite E. cbn [bind].
  rewrite Z.sub_diag, E. cbn [bind].
  rewrite set_out by (left; lia). reflexivity.
Qed.
Lemma Wma_nonpos_nil {N : Num} (p : Z) : (p <= 0)%Z -> Wma p [] = Ok (@nil F).
Proof.
  intros H. unfold Wma. cbn [len length Z.of_nat make Z.ltb Z.compare Z.to_nat repeat bind].
  destruct (Z.eqb_spec p 1); [lia|]. rewrite for_empty by lia. cbn [bind]. rewrite for_empty by lia. reflexivity.
Qed.

(** ** Variance *)
Lemma variance_tab p g : (1 <= p)%nat ->
  variance (tab p g) = sumf (fun j => g j * g j) p / INR p - (sumf g p / INR p) * (sumf g p / INR p).
Proof.
  intros Hp. unfold variance. set (m := mean (tab p g)).
  assert (Em : m = sumf g p / INR p) by (unfold m, mean; now rewrite Rsum_tab, tab_length).
  unfold mean. rewrite map_length, tab_length, Rsum_map_nth, tab_length.
  rewrite (sumf_ext _ (fun j => g j * g j - 2 * m * g j + m * m)).
  2:{ intros k Hk. rewrite tab_nth by lia. lra. }
  rewrite sumf_plus, sumf_minus, sumf_scal, sumf_const. rewrite Em.
  field. apply INR_nz; lia.
Qed.

Lemma variance_nonneg l : l <> [] -> 0 <= variance l.
Proof.
  intros H. unfold variance, mean. rewrite map_length. apply Rmult_le_pos.
  - rewrite Rsum_map_nth. apply sumf_nonneg. intros k _. apply (Rle_0_sqr (nth k l 0 - _)).
  - apply Rlt_le, Rinv_0_lt_compat, INR_pos. destruct l; [congruence|cbn; lia].
Qed.

Definition var_out (p : nat) (xs : list R) (i : nat) : xr :=
  if (S i <? p)%nat then Fin 0 else Fin (variance (window xs i p)).

Lemma Variance_exact (p : nat) (xs : list R) : (1 <= p)%nat -> (p <= length xs)%nat ->
  Variance (N := XR) (fins xs) (Z.of_nat p) = Ok (tab (length xs) (var_out p xs)).
Proof.
  intros Hp Hn. unfold Variance. rewrite make_len, fins_length; cbn [bind].
  set (x := fun k => nth k xs 0).
  replace (if (Z.of_nat p >? 1)%Z then (Z.of_nat p - 1)%Z else 0%Z) with (Z.of_nat (p - 1))
    by (destruct (Z.gtb_spec (Z.of_nat p) 1); lia).
  set (B := fun k n => sumf (fun j => x (k + j)%nat) n).
  set (Q := fun k n => sumf (fun j => x (k + j)%nat * x (k + j)%nat) n).
  set (st := fun i => let k := (i - (p - 1))%nat in
     ((Fin (B k (p - 1)%nat) : @F XR), (Fin (Q k (p - 1)%nat) : @F XR),
      partial (@fzero XR) (var_out p xs) (length xs) i)).
  assert (Hbody : forall i, (p - 1 <= i < length xs)%nat ->
     var_body (N := XR) (fins xs) (Z.of_nat p) (Z.of_nat (p - 1)) (Z.of_nat i) (st i) = Ok (st (S i))).
  { intros i Hi. unfold st, var_body. cbn zeta. set (k := (i - (p - 1))%nat).
    rewrite fins_get by lia. cbn [bind]. xr.
    replace (Z.of_nat i - Z.of_nat (p - 1))%Z with (Z.of_nat k) by lia.
    rewrite fins_get by lia. cbn [bind]. xr. fold (x i) (x k).
    replace (Z.of_nat p - 1 + Z.of_nat k)%Z with (Z.of_nat i) by lia.
    rewrite IZR_INR. rewrite !xr_div by (apply INR_nz; lia). xr.
    assert (EB : B k p = B k (p - 1)%nat + x i).
    { unfold B. replace p with (S (p - 1)) at 1 by lia. cbn [sumf].
      replace (k + (p - 1))%nat with i by lia. lra. }
    assert (EQ : Q k p = Q k (p - 1)%nat + x i * x i).
    { unfold Q. replace p with (S (p - 1)) at 1 by lia. cbn [sumf].
      replace (k + (p - 1))%nat with i by lia. lra. }
    rewrite partial_set; [|lia|].
    - cbn [bind]. replace (S i - (p - 1))%nat with (S k) by lia.
      do 2 f_equal. f_equal; f_equal.
      + rewrite <- EB. unfold B. replace p with (S (p - 1)) at 1 by lia. rewrite sumf_first, Nat.add_0_r.
        rewrite (sumf_ext (fun j => x (k + S j)%nat) (fun j => x (S k + j)%nat))
          by (intros j _; f_equal; lia). lra.
      + rewrite <- EQ. unfold Q. replace p with (S (p - 1)) at 1 by lia. rewrite sumf_first, Nat.add_0_r.
        rewrite (sumf_ext (fun j => x (k + S j)%nat * x (k + S j)%nat) (fun j => x (S k + j)%nat * x (S k + j)%nat))
          by (intros j _; do 2 f_equal; lia). lra.
    - unfold var_out. destruct (Nat.ltb_spec (S i) p); [lia|]. f_equal.
      rewrite (@window_full _ xs i p 0) by lia. rewrite variance_tab by lia.
      rewrite <- EB, <- EQ. unfold B, Q, x. replace (S i - p)%nat with k by lia. reflexivity. }
  change 0%Z with (Z.of_nat 0).
  rewrite (@for_nat _ (fun i => (Fin (B 0%nat i), Fin (Q 0%nat i))) 0 (p - 1)).
  2: lia.
  2: { rewrite xr_zero. reflexivity. }
  2: { intros i Hi. rewrite fins_get by lia. cbn [bind]. xr. reflexivity. }
  cbn [bind].
  match goal with |- context [var_body _ _ _ _ ?s] => replace s with (st (p - 1)%nat) end.
  2:{ unfold st. cbn zeta. rewrite Nat.sub_diag. f_equal. symmetry. apply partial_skips; [lia|].
      intros k Hk. unfold var_out. destruct (Nat.ltb_spec (S k) p); [reflexivity|lia]. }
  rewrite Hbody by lia. cbn [bind]. rewrite fins_len.
  replace (Z.of_nat (p - 1) + 1)%Z with (Z.of_nat p) by lia. replace (S (p - 1)) with p by lia.
  rewrite (@for_nat _ st p (length xs)).
  - unfold st. cbn zeta. cbn [bind]. now rewrite partial_full.
  - lia.
  - reflexivity.
  - intros i Hi. apply Hbody. lia.
Qed.

Lemma Variance_panic {N : Num} (p : Z) (xs : list F) : (p < 1 \/ len xs < p)%Z -> Variance xs p = Panic.
Proof.
  intros H. unfold Variance. rewrite make_len; cbn [bind]. pose proof (len_nonneg xs) as Hl.
  destruct (Z.gtb_spec p 1) as [Hp|Hp].
  - destruct (Z.le_gt_cases (p - 1) (len xs)) as [H1|H1].
    + destruct (for_ 0 (p - 1) _ _) as [[a b]|]; cbn [bind]; [|reflexivity].
      unfold var_body at 1. rewrite get_out by (right; lia). reflexivity.
    + rewrite for_panic_at with (mid := len xs) (I := fun _ _ => True); auto.
      * intros i [a b] Hi _. destruct (@get_in_range _ xs i) as [v E]; [lia|]. rewrite E. cbn [bind]. eauto.
      * intros [a b] _. rewrite get_out by (right; lia). reflexivity.
  - rewrite for_empty by lia. cbn [bind]. unfold var_body at 1.
    destruct (get xs 0) as [v|] eqn:E; cbn [bind]; [|reflexivity].
    rewrite Z.sub_diag, E; cbn [bind]. apply get_range in E.
    rewrite set_out by (left; lia). reflexivity.
Qed.

(** ** StdDev *)
Definition sd_post {N : Num} (nb : F) (t : F) : F :=
  if negb (t <~ sd_eps) then (if negb (nb ==~ ofZ 1) then fsqrt t *~ nb else fsqrt t) else ofZ 0.

Lemma inplace_loop {N : Num} (g : F -> F) (xs : list F) :
  for_ 0 (len xs) (fun i r => t <- get r i ;; set r i (g t)) xs = Ok (map g xs).
Proof.
  change 0%Z with (Z.of_nat 0). unfold len.
  rewrite (@for_nat _ (fun n => map g (firstn n xs) ++ skipn n xs) 0 (length xs)).
  - now rewrite firstn_all, skipn_all, app_nil_r.
  - lia.
  - reflexivity.
  - intros i Hi.
    pose proof (@firstn_S_nth _ xs i fzero ltac:(lia)) as Ef.
    pose proof (@skipn_S_nth _ xs i fzero ltac:(lia)) as Es.
    rewrite Es.
    rewrite get_nat with (d := fzero) by (rewrite app_length, map_length, firstn_length; cbn [length]; rewrite skipn_length; lia).
    rewrite app_nth2 by (rewrite map_length, firstn_length; lia).
    rewrite map_length, firstn_length. replace (i - Nat.min i (length xs))%nat with 0%nat by lia. cbn [nth bind].
    rewrite set_ok by (rewrite len_app, len_map, len_cons; unfold len; rewrite firstn_length, skipn_length; lia).
    rewrite Nat2Z.id. rewrite upd_app_r by (rewrite map_length, firstn_length; lia).
    rewrite map_length, firstn_length. replace (i - Nat.min i (length xs))%nat with 0%nat by lia. cbn [upd].
    rewrite Ef, map_app, <- app_assoc. reflexivity.
Qed.

Lemma Variance_length {N : Num} (xs : list F) p r : Variance xs p = Ok r -> length r = length xs.
Proof.
  unfold Variance. rewrite make_len; cbn [bind]. intros E.
  apply bind_ok in E as ((t1, t2) & E0 & E). apply bind_ok in E as (((u1, u2), r0) & E1 & E).
  apply bind_ok in E as (((v1, v2), r1) & E2 & E). injection E as <-.
  set (i0 := if (p >? 1)%Z then (p - 1)%Z else 0%Z) in *.
  assert (Hb : forall i st st', var_body xs p i0 i st = Ok st' -> length (snd st') = length (snd st)).
  { intros i [[a b] l] st' Eb. unfold var_body in Eb.
    apply bind_ok in Eb as (v & _ & Eb). apply bind_ok in Eb as (o & _ & Eb).
    apply bind_ok in Eb as (l' & El & Eb). injection Eb as <-. cbn. eapply set_length; eauto. }
  apply Hb in E1 as L1. cbn in L1. rewrite repeat_length in L1.
  destruct (Z.le_gt_cases (i0 + 1) (len xs)) as [Hl|Hl].
  - assert (HI : length (snd ((v1, v2), r1)) = length xs).
    { eapply (@for_inv_ok _ (fun _ st => length (snd st) = length xs)); [exact Hl| | |exact E2].
      - exact L1.
      - intros i st st' _ HI Eb. rewrite (Hb _ _ _ Eb). exact HI. }
    exact HI.
  - rewrite for_empty in E2 by lia. injection E2 as _ _ <-. exact L1.
Qed.

Lemma StdDev_gen {N : Num} (xs : list F) p nb :
  StdDev xs p nb = (v <- Variance xs p ;; Ok (map (sd_post nb) v)).
Proof.
  unfold StdDev. destruct (Variance xs p) as [v|] eqn:E; cbn [bind]; [|reflexivity].
  apply Variance_length in E. unfold len. rewrite <- E. fold (len v).
  rewrite <- inplace_loop. unfold sd_post.
  destruct (negb (nb ==~ ofZ 1)); apply for_ext; intros i st _;
    (destruct (get st i) as [t|]; cbn [bind]; [|reflexivity]); destruct (negb (t <~ sd_eps)); reflexivity.
Qed.

(** ** SD *)
Lemma fold_fadd_fins l a : fold_left (@fadd XR) (fins l) (Fin a) = Fin (a + Rsum l).
Proof.
  revert a; induction l as [|x l IH]; intros a; cbn [fins map fold_left].
  - rewrite Rsum_nil. f_equal; lra.
  - rewrite xr_add. fold (fins l). rewrite IH, Rsum_cons. f_equal; lra.
Qed.

Lemma SD_exact l : l <> [] -> SD (N := XR) (fins l) = Fin (sqrt (variance l)).
Proof.
  intros Hl. unfold SD. rewrite xr_zero, fold_fadd_fins, fins_len, xr_ofZ, IZR_INR.
  assert (Hn : INR (length l) <> 0) by (apply INR_nz; destruct l; [congruence|cbn; lia]).
  rewrite xr_div by exact Hn. rewrite Rplus_0_l. fold (mean l). set (m := mean l).
  assert (E : forall k a, fold_left (fun (s k : @F XR) => let d := k -~ (Fin m : @F XR) in s +~ d *~ d) (fins k) (Fin a : @F XR)
            = Fin (a + Rsum (map (fun x => (x - m) * (x - m)) k))).
  { induction k as [|x k IH]; intros a; cbn [fins map fold_left].
    - rewrite Rsum_nil. f_equal; lra.
    - cbn zeta. xr. fold (fins k). rewrite IH, Rsum_cons. f_equal; lra. }
  rewrite E. rewrite xr_div by exact Hn. rewrite Rplus_0_l.
  assert (Ev : Rsum (map (fun x => (x - m) * (x - m)) l) / INR (length l) = variance l).
  { unfold variance, mean at 1. now rewrite map_length. }
  rewrite Ev. cbn. pose proof (variance_nonneg Hl).
  destruct (Rltb_spec (variance l) 0); [lra|reflexivity].
Qed.

Lemma SD_empty : SD (N := XR) [] = NaN.
Proof.
  unfold SD. cbn [fold_left len length Z.of_nat]. rewrite xr_ofZ, xr_zero.
  change (xsqrt (xdiv (Fin 0) (Fin 0)) = NaN). rewrite xdiv_00. reflexivity.
Qed.

Lemma StdDev_exact (p : nat) (xs : list R) (nb : R) : (1 <= p)%nat -> (p <= length xs)%nat ->
  StdDev (N := XR) (fins xs) (Z.of_nat p) (Fin nb) =
  Ok (tab (length xs) (fun i =>
        let v := if (S i <? p)%nat then 0%R else variance (window xs i p) in
        if Rltb v (1 / 100000000000000) then Fin 0 else Fin (sqrt v * nb)%R)).
Proof.
  intros H1 H2. rewrite StdDev_gen, Variance_exact by assumption. cbn [bind]. f_equal.
  unfold tab. rewrite map_map. apply tab_ext. intros i Hi. cbv zeta.
  assert (E : var_out p xs i = Fin (if (S i <? p)%nat then 0%R else variance (window xs i p)))
    by (unfold var_out; destruct (S i <? p)%nat; reflexivity).
  rewrite E. assert (Hv : 0 <= (if (S i <? p)%nat then 0%R else variance (window xs i p))).
  { destruct (S i <? p)%nat; [lra|]. apply variance_nonneg. intros Hn.
    assert (Hw := f_equal (@length R) Hn). unfold window in Hw. rewrite skipn_length, firstn_length in Hw.
    change (length (@nil R)) with 0%nat in Hw. lia. }
  set (v := if (S i <? p)%nat then _ else _) in *. clearbody v.
  unfold sd_post, sd_eps. cbn -[Rltb Reqb sqrt].
  destruct (Rltb v (1 / 100000000000000)); cbn [negb]; [reflexivity|].
  destruct (Rltb_spec v 0); [lra|].
  destruct (Reqb_spec nb 1) as [->|]; cbn -[sqrt]; f_equal; ring.
Qed.
