(** * FloatError: how far the float64 results of running sums and moving averages are from the exact ones. *)
From Coq Require Import Reals Lra ZArith Lia List SpecFloat PeanoNat.
From Flocq Require Import Core BinarySingleNaN Relative Plus_error.
From Verif Require Import Base Num B64 XReal Rounding FloatLaws RSum Ta TaTools SpecTa TaAvg IndForms.
Import ListNotations.
Set Implicit Arguments.
Local Open Scope R_scope.
Local Existing Instance Rounding.Hprec.
Local Existing Instance Rounding.Hmax.
Local Existing Instance Rounding.Hfexp.

(** the relative error of one operation, the smallest positive float64, and a bound that keeps every operation from overflowing *)
Definition u : R := / 9007199254740992.
Definition tiny : R := bpow radix2 (-1074).
Definition big : R := bpow radix2 1000.
Lemma u_bpow : / 2 * bpow radix2 (-53 + 1) = u.
Proof. unfold u. cbn. lra. Qed.
Lemma u_pos : 0 < u. Proof. unfold u. lra. Qed.
Lemma tiny_pos : 0 < tiny. Proof. apply bpow_gt_0. Qed.
Lemma big_pos : 0 < big. Proof. apply bpow_gt_0. Qed.
Lemma val_format x : fin x -> generic_format radix2 (SpecFloat.fexp 53 1024) (val x).
Proof. intros H. destruct (fin_B H) as (b & -> & _ & ->). apply generic_format_B2R. Qed.
Lemma rnd_big r : Rabs r <= big -> Rabs (rnd r) < huge.
Proof.
  intros H. apply Rle_lt_trans with big; [|apply bpow_lt; lia].
  apply abs_round_le_generic; [exact Hfexp|apply valid_rnd_N| |exact H].
  apply (@generic_format_bpow radix2 (SpecFloat.fexp 53 1024)). unfold SpecFloat.fexp, SpecFloat.emin. lia.
Qed.
Lemma rnd_err r : Rabs (rnd r - r) <= u * Rabs r + tiny / 2.
Proof.
  destruct (@error_N_FLT radix2 (-1074) 53 eq_refl (fun x => negb (Z.even x)) r) as (e & t & He & Ht & _ & E).
  change (rnd r) with (round radix2 (FLT_exp (-1074) 53) (Znearest (fun x => negb (Z.even x))) r). rewrite E.
  replace (r * (1 + e) + t - r) with (r * e + t) by ring. change (Rabs e <= / 2 * bpow radix2 (-53 + 1)) in He. rewrite u_bpow in He. fold tiny in Ht.
  eapply Rle_trans; [apply Rabs_triang|]. rewrite Rabs_mult. pose proof (Rabs_pos r). nra.
Qed.
Lemma rnd_plus_err x y : fin x -> fin y -> Rabs (rnd (val x + val y) - (val x + val y)) <= u * Rabs (val x + val y).
Proof.
  intros Hx Hy. destruct (@FLT_plus_error_N_ex radix2 (-1074) 53 Hprec (fun x => negb (Z.even x)) (val x) (val y)) as (e & He & E).
  - exact (val_format Hx).
  - exact (val_format Hy).
  - change (rnd (val x + val y)) with (round radix2 (FLT_exp (-1074) 53) (Znearest (fun x => negb (Z.even x))) (val x + val y)). rewrite E.
    replace ((val x + val y) * (1 + e) - (val x + val y)) with ((val x + val y) * e) by ring. rewrite Rabs_mult.
    assert (Hu : u_ro radix2 53 = u) by exact u_bpow. rewrite Hu in He. pose proof u_pos.
    assert (u / (1 + u) <= u).
    { apply Rmult_le_reg_r with (1 + u); [lra|]. unfold Rdiv. rewrite Rmult_assoc, Rinv_l by lra. nra. }
    pose proof (Rabs_pos (val x + val y)). nra.
Qed.

Section Ops.
Variable L : MathLib.
Local Notation N := (B64 L).
Lemma add_err (x y : @F N) : fin x -> fin y -> Rabs (val x + val y) <= big ->
  fin (x +~ y) /\ Rabs (val (x +~ y) - (val x + val y)) <= u * Rabs (val x + val y).
Proof. intros Hx Hy Hb. destruct (add_val Hx Hy (@rnd_big _ Hb)) as [F1 V1]. split; [exact F1|]. cbn [fadd B64]. rewrite V1. now apply rnd_plus_err. Qed.
Lemma val_opp x : fin x -> fin (SFopp x) /\ val (SFopp x) = - val x.
Proof.
  intros [Hv Hf]. split; [split; [now apply valid_opp|destruct x; try discriminate; reflexivity]|].
  unfold val. destruct x as [s|s| |s m e]; cbn; try lra. unfold F2R. cbn. destruct s; cbn; rewrite ?Ropp_mult_distr_l, <- ?opp_IZR; reflexivity.
Qed.
Lemma sub_err (x y : @F N) : fin x -> fin y -> Rabs (val x - val y) <= big ->
  fin (x -~ y) /\ Rabs (val (x -~ y) - (val x - val y)) <= u * Rabs (val x - val y).
Proof.
  intros Hx Hy Hb. destruct (val_opp Hy) as [Fo Vo]. unfold fsub; cbn [B64]. rewrite sub_opp.
  assert (E : val x - val y = val x + val (SFopp y)) by (rewrite Vo; ring). rewrite E in *. exact (@add_err x (SFopp y) Hx Fo Hb).
Qed.
Lemma mul_err (x y : @F N) : fin x -> fin y -> Rabs (val x * val y) <= big ->
  fin (x *~ y) /\ Rabs (val (x *~ y) - val x * val y) <= u * Rabs (val x * val y) + tiny / 2.
Proof. intros Hx Hy Hb. destruct (mul_val Hx Hy (@rnd_big _ Hb)) as [F1 V1]. split; [exact F1|]. cbn [fmul B64]. rewrite V1. apply rnd_err. Qed.
Lemma div_err (x y : @F N) : fin x -> fin y -> val y <> 0 -> Rabs (val x / val y) <= big ->
  fin (x /~ y) /\ Rabs (val (x /~ y) - val x / val y) <= u * Rabs (val x / val y) + tiny / 2.
Proof. intros Hx Hy H0 Hb. destruct (div_val Hx Hy H0 (@rnd_big _ Hb)) as [F1 V1]. split; [exact F1|]. cbn [fdiv B64]. rewrite V1. apply rnd_err. Qed.

(** ** Running sums *)
(** the exact sum of the last [min p i] values before bar [i] *)
Fixpoint wsumR (p : nat) (g : nat -> R) (i : nat) : R :=
  match i with O => 0 | S j => wsumR p g j + g j - (if (p <=? j)%nat then g (j - p)%nat else 0) end.
Lemma wsumR_window p g n i : (i < n)%nat -> wsumR p g (S i) = Rsum (window (tab n g) i p).
Proof.
  intros Hi. pose proof (@runSum_exact p (tab n g) i ltac:(rewrite tab_length; exact Hi)) as E.
  assert (Q : forall k, (k <= n)%nat -> runSum (N := XR) p (fins (tab n g)) k = Fin (wsumR p g k)).
  { induction k as [|k IH]; intros Hk; [reflexivity|]. cbn [runSum wsumR]. rewrite IH by lia. rewrite !fins_nth0. rewrite !tab_nth by lia.
    destruct (Nat.leb_spec p k).
    - xr. reflexivity.
    - xr. f_equal. lra. }
  rewrite Q in E by lia. now injection E.
Qed.
Lemma Rsum_abs l M : 0 <= M -> (forall x, In x l -> Rabs x <= M) -> Rabs (Rsum l) <= INR (length l) * M.
Proof.
  intros HM H. induction l as [|x l IH]; [cbn; rewrite Rabs_R0; lra|].
  change (Rsum (x :: l)) with (x + Rsum l). cbn [length]. rewrite S_INR. eapply Rle_trans; [apply Rabs_triang|].
  pose proof (H x (or_introl eq_refl)). pose proof (IH (fun y Hy => H y (or_intror Hy))). lra.
Qed.
Lemma wsumR_abs p g n M i : 0 <= M -> (forall j, (j < n)%nat -> Rabs (g j) <= M) -> (i <= n)%nat -> Rabs (wsumR p g i) <= INR (Nat.min i p) * M.
Proof.
  intros HM H Hi. destruct i as [|i]; [cbn; rewrite Rabs_R0; lra|]. rewrite (@wsumR_window p g n i) by lia.
  eapply Rle_trans; [apply Rsum_abs with (M := M); [exact HM|]|].
  - intros x Hx. apply In_nth_error in Hx as [k Hk]. assert (Hl : (k < length (window (tab n g) i p))%nat) by (apply nth_error_Some; congruence).
    apply (nth_error_nth _ _ 0) in Hk. rewrite window_length in Hl by (rewrite tab_length; lia).
    rewrite window_nth in Hk by (rewrite ?tab_length; lia). rewrite tab_nth in Hk by lia. subst x. apply H. lia.
  - rewrite window_length by (rewrite tab_length; lia). apply Req_le. reflexivity.
Qed.

Lemma run_err (p n : nat) (f : nat -> @F N) (M : R) : 0 <= M -> (forall j, (j < n)%nat -> fin (f j) /\ Rabs (val (f j)) <= M) ->
  2 * (INR p + 1) * M <= big -> INR n <= 1125899906842624 -> forall i, (i <= n)%nat ->
  fin (runF p f i) /\ Rabs (val (runF p f i) - wsumR p (fun j => val (f j)) i) <= INR i * (INR (Nat.min i p) + 1) * M * (4 * u).
Proof.
  intros HM Hf Hb Hn. set (g := fun j => val (f j)). assert (Hg : forall j, (j < n)%nat -> Rabs (g j) <= M) by (intros j Hj; apply (Hf j Hj)).
  induction i as [|i IH]; intros Hi.
  { cbn [runF wsumR]. destruct (ofZ_val 0) as [F0 V0]; [cbn; lia|]. split; [exact F0|]. change (@fzero N) with (b_ofZ 0). rewrite V0. replace (IZR 0 - 0) with 0 by ring. rewrite Rabs_R0. change (INR 0) with 0. right. ring. }
  destruct IH as [Fr Er]; [lia|]. destruct (Hf i ltac:(lia)) as [Fi Mi].
  assert (Ii : INR i <= 1125899906842624 - 1). { pose proof (le_INR _ _ Hi) as Q. rewrite S_INR in Q. lra. }
  pose proof (pos_INR i) as Pi. set (c := INR (Nat.min i p) + 1).
  assert (Hc : 1 <= c) by (unfold c; pose proof (pos_INR (Nat.min i p)); lra).
  assert (Hc2 : c <= INR p + 1) by (unfold c; apply Rplus_le_compat_r, le_INR; lia).
  assert (Hc3 : c <= INR (Nat.min (S i) p) + 1) by (unfold c; apply Rplus_le_compat_r, le_INR; lia).
  pose proof (@wsumR_abs p g n M i HM Hg ltac:(lia)) as W0.
  fold c in Er. set (T := c * M). assert (HT : 0 <= T) by (unfold T; nra). assert (HTb : 2 * T <= big) by (unfold T; nra).
  assert (E0 : INR i * c * M * (4 * u) <= T / 2).
  { replace (INR i * c * M * (4 * u)) with (INR i * (4 * u) * T) by (unfold T; ring). assert (INR i * (4 * u) <= / 2) by (unfold u; lra). nra. }
  set (e := INR i * c * M * (4 * u)) in *.
  set (s := runF p f i) in *. set (w := wsumR p g i) in *.
  assert (W1 : Rabs (w + g i) <= T).
  { eapply Rle_trans; [apply Rabs_triang|]. pose proof (Hg i ltac:(lia)). unfold T, c. lra. }
  assert (A0 : Rabs (val s + g i) <= T + e).
  { replace (val s + g i) with ((w + g i) + (val s - w)) by ring. eapply Rle_trans; [apply Rabs_triang|]. lra. }
  destruct (@add_err s (f i) Fr Fi) as [Fa Ea]; [fold (g i); lra|]. fold (g i) in Ea. set (a := s +~ f i) in *.
  pose proof u_pos as Pu. assert (Hu : u <= / 1000) by (unfold u; lra).
  assert (D1 : Rabs (val a - (w + g i)) <= e + u * (T + e)).
  { replace (val a - (w + g i)) with ((val a - (val s + g i)) + (val s - w)) by ring. eapply Rle_trans; [apply Rabs_triang|].
    assert (u * Rabs (val s + g i) <= u * (T + e)) by (apply Rmult_le_compat_l; lra). lra. }
  assert (PuT : 0 <= u * T) by (apply Rmult_le_pos; lra).
  assert (Fin : e + 4 * u * T <= INR (S i) * (INR (Nat.min (S i) p) + 1) * M * (4 * u)).
  { unfold e, T. rewrite S_INR. replace (INR i * c * M * (4 * u) + 4 * u * (c * M)) with ((INR i + 1) * c * (M * (4 * u))) by ring.
    rewrite (Rmult_assoc ((INR i + 1) * (INR (Nat.min (S i) p) + 1))). apply Rmult_le_compat_r; [nra|]. apply Rmult_le_compat_l; lra. }
  cbn [runF wsumR]. fold g s w a. destruct (Nat.leb_spec p i) as [Hp|Hp].
  - destruct (Hf (i - p)%nat ltac:(lia)) as [Fo Mo]. set (o := f (i - p)%nat) in *. change (g (i - p)%nat) with (val o).
    assert (W2 : Rabs (w + g i - val o) <= T).
    { pose proof (@wsumR_abs p g n M (S i) HM Hg Hi) as Q. cbn [wsumR] in Q. fold w in Q. destruct (Nat.leb_spec p i); [|lia]. change (g (i - p)%nat) with (val o) in Q.
      eapply Rle_trans; [exact Q|]. unfold T, c. replace (Nat.min (S i) p) with (Nat.min i p) by lia. apply Rmult_le_compat_r; lra. }
    assert (uTe : u * (T + e) <= u * (3 / 2 * T)) by (apply Rmult_le_compat_l; lra).
    assert (uT : u * (3 / 2 * T) <= / 1000 * (3 / 2 * T)) by (apply Rmult_le_compat_r; lra).
    assert (B0 : Rabs (val a - val o) <= T + e + u * (T + e)).
    { replace (val a - val o) with ((w + g i - val o) + (val a - (w + g i))) by ring. eapply Rle_trans; [apply Rabs_triang|]. lra. }
    destruct (@sub_err a o Fa Fo) as [Fb Eb]; [lra|]. split; [exact Fb|].
    eapply Rle_trans; [|exact Fin].
    replace (val (a -~ o) - (w + g i - val o)) with ((val (a -~ o) - (val a - val o)) + (val a - (w + g i))) by ring.
    eapply Rle_trans; [apply Rabs_triang|].
    assert (u * Rabs (val a - val o) <= u * (2 * T)) by (apply Rmult_le_compat_l; lra). lra.
  - split; [exact Fa|]. rewrite Rminus_0_r. eapply Rle_trans; [|exact Fin].
    assert (u * (T + e) <= u * (4 * T)) by (apply Rmult_le_compat_l; lra). lra.
Qed.

(** ** Simple moving average *)
Lemma sma_err (p n : nat) (f : nat -> @F N) (M : R) : (1 <= p)%nat -> 0 <= M -> (forall j, (j < n)%nat -> fin (f j) /\ Rabs (val (f j)) <= M) ->
  2 * (INR p + 1) * M <= big -> tiny <= big / 2 -> INR n <= 1125899906842624 -> forall i, (i < n)%nat ->
  fin (smaF p f i) /\ Rabs (val (smaF p f i) - mean (window (tab n (fun j => val (f j))) i p)) <= (INR i + 2) * M * (8 * u) + tiny / 2.
Proof.
  intros Hp HM Hf Hb Htb Hn i Hi. set (g := fun j => val (f j)). assert (Hg : forall j, (j < n)%nat -> Rabs (g j) <= M) by (intros j Hj; apply (Hf j Hj)).
  destruct (@run_err p n f M HM Hf Hb Hn (S i) Hi) as [Fs Es]. fold g in Es. pose proof (@wsumR_abs p g n M (S i) HM Hg Hi) as Hw.
  rewrite (@wsumR_window p g n i Hi) in *. unfold mean. rewrite window_length by (rewrite tab_length; exact Hi).
  set (w := Rsum (window (tab n g) i p)) in *. set (s := runF p f (S i)) in *. set (k := Nat.min (S i) p) in *. set (c := INR k) in *.
  assert (Hk : (1 <= k <= S i)%nat) by (unfold k; lia).
  assert (H1 : 1 <= c) by (unfold c; apply (le_INR 1); lia). assert (H2 : c <= INR i + 1) by (unfold c; rewrite <- S_INR; apply le_INR; lia).
  assert (H3 : INR i + 1 <= 1125899906842624) by (rewrite <- S_INR; eapply Rle_trans; [apply le_INR; exact Hi|exact Hn]).
  assert (Hpc : c <= INR p) by (unfold c, k; apply le_INR; lia).
  pose proof u_pos as Pu. pose proof tiny_pos as Pt. pose proof (pos_INR i) as Pi. rewrite S_INR in Es.
  assert (P1 : 1 <= INR p) by (apply (le_INR 1); lia). assert (HMb : 4 * M <= big) by nra.
  set (e := (INR i + 1) * (c + 1) * M * (4 * u)) in *.
  assert (Ec : e / c <= (INR i + 1) * M * (8 * u)).
  { apply Rmult_le_reg_r with c; [lra|]. unfold Rdiv. rewrite Rmult_assoc, Rinv_l, Rmult_1_r by lra. unfold e.
    replace ((INR i + 1) * M * (8 * u) * c) with ((INR i + 1) * (2 * c) * M * (4 * u)) by ring.
    apply Rmult_le_compat_r; [lra|]. apply Rmult_le_compat_r; [exact HM|]. apply Rmult_le_compat_l; lra. }
  assert (Ec2 : (INR i + 1) * M * (8 * u) <= M).
  { replace ((INR i + 1) * M * (8 * u)) with (M * ((INR i + 1) * (8 * u))) by ring. rewrite <- (Rmult_1_r M) at 2. apply Rmult_le_compat_l; [exact HM|]. unfold u. lra. }
  assert (Wc : Rabs (w / c) <= M).
  { unfold Rdiv. rewrite Rabs_mult, (Rabs_pos_eq (/ c)) by (left; apply Rinv_0_lt_compat; lra). apply Rmult_le_reg_r with c; [lra|]. rewrite Rmult_assoc, Rinv_l, Rmult_1_r by lra. lra. }
  assert (Sc : Rabs (val s / c - w / c) <= (INR i + 1) * M * (8 * u)).
  { replace (val s / c - w / c) with ((val s - w) / c) by (field; lra). unfold Rdiv. rewrite Rabs_mult, (Rabs_pos_eq (/ c)) by (left; apply Rinv_0_lt_compat; lra).
    eapply Rle_trans; [|exact Ec]. apply Rmult_le_compat_r; [left; apply Rinv_0_lt_compat; lra|exact Es]. }
  assert (Sa : Rabs (val s / c) <= 2 * M).
  { replace (val s / c) with (w / c + (val s / c - w / c)) by ring. eapply Rle_trans; [apply Rabs_triang|]. lra. }
  destruct (ofZ_val (Z.of_nat k)) as [Fk Vk].
  { assert (Z.of_nat (S i) <= 1125899906842624)%Z; [|lia]. apply le_IZR. rewrite <- INR_IZR_INZ, S_INR. exact H3. }
  rewrite <- INR_IZR_INZ in Vk. fold c in Vk.
  destruct (@div_err s (b_ofZ (Z.of_nat k)) Fs Fk) as [Fd Ed]; [rewrite Vk; lra|rewrite Vk; lra|]. rewrite Vk in Ed.
  assert (E : smaF p f i = s /~ b_ofZ (Z.of_nat k)).
  { unfold smaF. assert (Q : (if (p <=? i)%nat then Z.of_nat p else (Z.of_nat i + 1)%Z) = Z.of_nat k) by (unfold k; destruct (Nat.leb_spec p i); lia).
    rewrite Q. fold s. unfold sma_clean. change (@ofZ N (Z.of_nat k)) with (b_ofZ (Z.of_nat k)).
    cbn [isNaN isNInf B64]. rewrite (fin_not_nan Fd). destruct (fin_not_inf Fd) as [_ ->]. reflexivity. }
  rewrite E. split; [exact Fd|].
  replace (val (s /~ b_ofZ (Z.of_nat k)) - w / c) with ((val (s /~ b_ofZ (Z.of_nat k)) - val s / c) + (val s / c - w / c)) by ring.
  eapply Rle_trans; [apply Rabs_triang|].
  assert (u * Rabs (val s / c) <= u * (2 * M)) by (apply Rmult_le_compat_l; lra).
  assert (0 <= u * M) by (apply Rmult_le_pos; lra).
  replace ((INR i + 2) * M * (8 * u)) with ((INR i + 1) * M * (8 * u) + 8 * (u * M)) by ring. lra.
Qed.

(** ** Exponential moving average *)
Lemma ema_abs a g M i : 0 <= a <= 1 -> (forall j, (j <= i)%nat -> Rabs (g j) <= M) -> Rabs (ema a g i) <= M.
Proof.
  intros Ha. induction i as [|i IH]; intros H; cbn [ema]; [now apply H|].
  pose proof (H (S i) ltac:(lia)) as H1. pose proof (IH (fun j Hj => H j ltac:(lia))) as H2.
  eapply Rle_trans; [apply Rabs_triang|]. rewrite !Rabs_mult, (Rabs_pos_eq a), (Rabs_pos_eq (1 - a)) by lra. nra.
Qed.
Lemma ema_step_err (p : Z) (x y : @F N) (E M e : R) : (1 <= p)%Z -> (p + 1 <= 1125899906842624)%Z -> 0 <= M ->
  4 * IZR (p + 1) * (M + e) + tiny <= big ->
  fin x -> fin y -> Rabs (val x) <= M -> Rabs E <= M -> Rabs (val y - E) <= e -> e = IZR (p + 1) * (M * (4 * u) + tiny) ->
  fin ((ofZ 2 *~ x +~ ofZ (p - 1) *~ y) /~ ofZ (p + 1)) /\
  Rabs (val ((ofZ 2 *~ x +~ ofZ (p - 1) *~ y) /~ ofZ (p + 1)) - (2 / IZR (p + 1) * val x + (1 - 2 / IZR (p + 1)) * E)) <= e.
Proof.
  intros Hp Hq HM Hb Fx Fy Mx ME Ey He.
  pose proof u_pos as Pu. pose proof tiny_pos as Pt. assert (Hu : u <= / 1000) by (unfold u; lra).
  destruct (ofZ_val 2) as [F2 V2]; [cbn; lia|]. destruct (ofZ_val (p - 1)) as [F3 V3]; [lia|]. destruct (ofZ_val (p + 1)) as [F4 V4]; [lia|].
  change (@ofZ N) with b_ofZ. set (q := IZR (p + 1)) in *. assert (Hr : IZR (p - 1) = q - 2) by (unfold q; rewrite plus_IZR, minus_IZR; lra). rewrite Hr in V3.
  assert (Q2 : 2 <= q) by (apply (IZR_le 2); lia). assert (Qb : q <= 1125899906842624) by (apply IZR_le in Hq; exact Hq).
  assert (PuM : 0 <= M * (4 * u)) by nra. assert (Pe : 0 <= e) by (rewrite He; nra).
  set (G := M + e) in *. assert (HG : 0 <= G) by (unfold G; lra). assert (PuG : 0 <= u * G) by nra.
  assert (Yb : Rabs (val y) <= G).
  { replace (val y) with (E + (val y - E)) by ring. eapply Rle_trans; [apply Rabs_triang|]. unfold G. lra. }
  assert (QG : 2 * G <= q * G) by nra.
  assert (uqG : 0 <= u * (q * G)) by nra. assert (uqG2 : u * (q * G) <= / 1000 * (q * G)) by nra.
  (* a *)
  assert (A1 : Rabs (val (b_ofZ 2) * val x) <= 2 * G) by (rewrite V2, Rabs_mult, (Rabs_pos_eq (IZR 2)) by lra; unfold G; lra).
  destruct (@mul_err (b_ofZ 2) x F2 Fx) as [Fa Ea]; [lra|]. rewrite V2 in Ea, A1. set (a := @fmul N (b_ofZ 2) x) in *.
  (* b *)
  assert (B1 : Rabs (val (b_ofZ (p - 1)) * val y) <= (q - 2) * G).
  { rewrite V3, Rabs_mult, (Rabs_pos_eq (q - 2)) by lra. apply Rmult_le_compat_l; lra. }
  destruct (@mul_err (b_ofZ (p - 1)) y F3 Fy) as [Fb Eb]; [lra|]. rewrite V3 in Eb, B1. set (b := @fmul N (b_ofZ (p - 1)) y) in *.
  set (A := 2 * val x + (q - 2) * val y).
  assert (A2 : Rabs A <= q * G).
  { unfold A. eapply Rle_trans; [apply Rabs_triang|]. change (IZR 2) with 2 in A1. lra. }
  assert (uA : u * Rabs (2 * val x) + u * Rabs ((q - 2) * val y) <= u * (q * G)).
  { assert (u * Rabs (2 * val x) <= u * (2 * G)) by (apply Rmult_le_compat_l; lra).
    assert (u * Rabs ((q - 2) * val y) <= u * ((q - 2) * G)) by (apply Rmult_le_compat_l; lra). lra. }
  assert (S1 : Rabs (val a + val b - A) <= u * (q * G) + tiny).
  { unfold A. replace (val a + val b - (2 * val x + (q - 2) * val y)) with ((val a - 2 * val x) + (val b - (q - 2) * val y)) by ring.
    eapply Rle_trans; [apply Rabs_triang|]. lra. }
  assert (S2 : Rabs (val a + val b) <= q * G + u * (q * G) + tiny).
  { replace (val a + val b) with (A + (val a + val b - A)) by ring. eapply Rle_trans; [apply Rabs_triang|]. lra. }
  destruct (@add_err a b Fa Fb) as [Fc Ec]; [lra|]. set (c := a +~ b) in *.
  assert (uS2 : u * Rabs (val a + val b) <= u * (q * G) + / 1000 * (u * (q * G)) + / 1000 * tiny).
  { eapply Rle_trans; [apply Rmult_le_compat_l; [lra|exact S2]|]. rewrite !Rmult_plus_distr_l.
    assert (u * (u * (q * G)) <= / 1000 * (u * (q * G))) by (apply Rmult_le_compat_r; lra).
    assert (u * tiny <= / 1000 * tiny) by (apply Rmult_le_compat_r; lra). lra. }
  assert (C1 : Rabs (val c - A) <= 2001 / 1000 * (u * (q * G)) + 1001 / 1000 * tiny).
  { replace (val c - A) with ((val c - (val a + val b)) + (val a + val b - A)) by ring. eapply Rle_trans; [apply Rabs_triang|]. lra. }
  assert (C2 : Rabs (val c) <= 101 / 100 * (q * G) + 101 / 100 * tiny).
  { replace (val c) with (A + (val c - A)) by ring. eapply Rle_trans; [apply Rabs_triang|]. lra. }
  assert (Pq : 0 < / q) by (apply Rinv_0_lt_compat; lra).
  assert (tq : tiny / q <= tiny / 2).
  { unfold Rdiv. apply Rmult_le_compat_l; [lra|]. apply Rinv_le_contravar; lra. }
  assert (D1 : Rabs (val c / q - A / q) <= 2001 / 1000 * (u * G) + 1001 / 1000 * (tiny / 2)).
  { replace (val c / q - A / q) with ((val c - A) * / q) by (field; lra). rewrite Rabs_mult, (Rabs_pos_eq (/ q)) by lra.
    eapply Rle_trans; [apply Rmult_le_compat_r; [lra|exact C1]|].
    replace ((2001 / 1000 * (u * (q * G)) + 1001 / 1000 * tiny) * / q) with (2001 / 1000 * (u * G) + 1001 / 1000 * (tiny / q)) by (field; lra). lra. }
  assert (D2 : Rabs (val c / q) <= 101 / 100 * G + 101 / 100 * (tiny / 2)).
  { unfold Rdiv at 1. rewrite Rabs_mult, (Rabs_pos_eq (/ q)) by lra. eapply Rle_trans; [apply Rmult_le_compat_r; [lra|exact C2]|].
    replace ((101 / 100 * (q * G) + 101 / 100 * tiny) * / q) with (101 / 100 * G + 101 / 100 * (tiny / q)) by (field; lra). lra. }
  destruct (@div_err c (b_ofZ (p + 1)) Fc F4) as [Fd Ed]; [rewrite V4; lra|rewrite V4; lra|]. rewrite V4 in Ed. split; [exact Fd|].
  set (d := val (@fdiv N c (b_ofZ (p + 1)))) in *.
  assert (uD2 : u * Rabs (val c / q) <= 101 / 100 * (u * G) + 1 / 1000 * tiny).
  { eapply Rle_trans; [apply Rmult_le_compat_l; [lra|exact D2]|]. assert (u * tiny <= / 1000 * tiny) by (apply Rmult_le_compat_r; lra). lra. }
  assert (X : Rabs (A / q - (2 / q * val x + (1 - 2 / q) * E)) <= e - 2 * (M * (4 * u) + tiny)).
  { replace (A / q - (2 / q * val x + (1 - 2 / q) * E)) with ((1 - 2 / q) * (val y - E)) by (unfold A; field; lra).
    assert (Q1 : 0 <= 1 - 2 / q). { apply Rmult_le_reg_r with q; [lra|]. unfold Rdiv. rewrite Rmult_minus_distr_r, Rmult_assoc, Rinv_l by lra. lra. }
    rewrite Rabs_mult, (Rabs_pos_eq (1 - 2 / q)) by exact Q1. eapply Rle_trans; [apply Rmult_le_compat_l; [exact Q1|exact Ey]|].
    rewrite He at 1 2. right. field. lra. }
  assert (uG : u * G <= 3 / 2 * (M * u) + tiny / 8).
  { unfold G. rewrite He. assert (uq : u * q <= / 8) by (unfold u; lra).
    assert (u * q * (M * (4 * u) + tiny) <= / 8 * (M * (4 * u) + tiny)) by (apply Rmult_le_compat_r; lra). lra. }
  replace (d - (2 / q * val x + (1 - 2 / q) * E)) with ((d - val c / q) + ((val c / q - A / q) + (A / q - (2 / q * val x + (1 - 2 / q) * E)))) by ring.
  eapply Rle_trans; [apply Rabs_triang|]. eapply Rle_trans; [apply Rplus_le_compat_l, Rabs_triang|]. lra.
Qed.
Lemma ema_err (p : Z) (n : nat) (f : nat -> @F N) (M : R) : (1 <= p)%Z -> (p + 1 <= 1125899906842624)%Z -> 0 <= M ->
  (forall j, (j < n)%nat -> fin (f j) /\ Rabs (val (f j)) <= M) -> 8 * IZR (p + 1) * M + 1 <= big -> forall i, (i < n)%nat ->
  fin (emaF p f i) /\ Rabs (val (emaF p f i) - ema (2 / IZR (p + 1)) (fun j => val (f j)) i) <= IZR (p + 1) * (M * (4 * u) + tiny).
Proof.
  intros Hp Hq HM Hf Hb. pose proof u_pos as Pu. pose proof tiny_pos as Pt.
  assert (Q2 : 2 <= IZR (p + 1)) by (apply (IZR_le 2); lia). assert (Qb : IZR (p + 1) <= 1125899906842624) by (apply IZR_le in Hq; exact Hq).
  assert (Tt : tiny <= / 1125899906842624 * / 1125899906842624 * / 8).
  { unfold tiny. change (/ 1125899906842624) with (/ IZR (Z.pow_pos 2 50)). change (/ 8) with (/ IZR (Z.pow_pos 2 3)).
    change (/ IZR (Z.pow_pos 2 50)) with (bpow radix2 (-50)). change (/ IZR (Z.pow_pos 2 3)) with (bpow radix2 (-3)). rewrite <- !bpow_plus. apply bpow_le. lia. }
  assert (Hbig : 4 * IZR (p + 1) * (M + IZR (p + 1) * (M * (4 * u) + tiny)) + tiny <= big).
  { set (q := IZR (p + 1)) in *. assert (uq : q * (4 * u) <= / 2) by (unfold u; lra).
    assert (q * (M * (4 * u)) <= M / 2) by (replace (q * (M * (4 * u))) with (M * (q * (4 * u))) by ring; apply Rle_trans with (M * / 2); [apply Rmult_le_compat_l; lra|lra]).
    assert (H1 : q * tiny <= 1125899906842624 * tiny) by (apply Rmult_le_compat_r; lra).
    assert (H2 : q * (q * tiny) <= 1125899906842624 * (1125899906842624 * tiny)) by (apply Rmult_le_compat; nra).
    assert (H3 : q * (M + q * (M * (4 * u) + tiny)) <= q * (3 / 2 * M) + q * (q * tiny)).
    { rewrite <- Rmult_plus_distr_l. apply Rmult_le_compat_l; lra. }
    nra. }
  induction i as [|i IH]; intros Hi.
  - cbn [emaF ema]. split; [apply (Hf 0%nat Hi)|]. rewrite Rminus_diag_eq, Rabs_R0 by reflexivity. apply Rmult_le_pos; [lra|]. nra.
  - destruct IH as [Fy Ey]; [lia|]. destruct (Hf (S i) Hi) as [Fx Mx]. cbn [emaF ema].
    apply (@ema_step_err p (f (S i)) (emaF p f i) (ema (2 / IZR (p + 1)) (fun j => val (f j)) i) M (IZR (p + 1) * (M * (4 * u) + tiny))); auto.
    apply ema_abs; [|intros j Hj; apply (Hf j); lia]. split; [apply Rmult_le_pos; [lra|left; apply Rinv_0_lt_compat; lra]|].
    apply Rmult_le_reg_r with (IZR (p + 1)); [lra|]. unfold Rdiv. rewrite Rmult_assoc, Rinv_l by lra. lra.
Qed.
End Ops.
